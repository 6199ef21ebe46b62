(** Code that consists of parts: the tasks of a part are done before the next part begins. *)
From Verif Require Import Base Task ThreadPool ThreadPoolProofs ThreadPoolRun ThreadPoolJoin PropThreadPool PoolTrace PoolTraceProofs PropPoolTrace PoolSlot.
Ltac Zify.zify_post_hook ::= Z.div_mod_to_equations.
Local Open Scope nat_scope.

(** The function submits less than [d] tasks, or [d]; those that its tasks submit count. *)
Inductive submits : nat → prog → Prop :=
  | submits_done d : submits d PDone
  | submits_submit d a b c o k : submits a c → (∀ t, submits b (k t)) → a + b < d → submits d (PSubmit c o k)
  | submits_wait d t k : submits d k → submits d (PWait t k)
  | submits_stop d k : submits d k → submits d (PStop k)
  | submits_act d a k : submits d k → submits d (PAct a k).

Lemma submits_mono d p : submits d p → ∀ e, d ≤ e → submits e p.
Proof. induction 1 as [d|d a b c o k Hc IHc Hk IHk Hd|d t k Hk IH|d k Hk IH|d a k Hk IH]; intros e He; [constructor|eapply submits_submit; [done|done|lia]|constructor; auto..]. Qed.
Lemma submits_weight p : uniform p → submits (weight p) p.
Proof.
  induction p as [|c IHc o k IHk|t k IHk|k IHk|a k IHk]; cbn; intros H; [constructor| |constructor; by apply IHk..].
  destruct H as [Hc Hk]. eapply (submits_submit _ (weight c) (weight (k 0))); [by apply IHc| |lia]. intros t. destruct (Hk t) as [Hu <-]. by apply IHk.
Qed.

(** * A sequence of parts *)

Definition one_after_other (ps : list prog) : prog := foldr seq_prog PDone ps.

(** Code that waits only for its own tasks has nothing to wait for at its begin. *)
Lemma joined_fresh p : ∀ own P, fork_join own p → joined P p → ∀ u, u ∈ P → u ∈ own.
Proof.
  induction p as [|c _ o k IHk|t k IHk|k IHk|a k IHk]; cbn; intros own P Hf Hj u Hu.
  - subst P. by apply elem_of_nil in Hu.
  - set (m := S u). destruct o as [q|].
    + destruct Hf as (_ & _ & Hf). destruct Hj as [_ Hj]. eapply (IHk m own (q :: P)); [apply Hf|apply Hj|by right].
    + destruct Hf as (_ & Hf). destruct Hj as [_ Hj]. assert (u ∈ m :: own) as Hin by (eapply (IHk m (m :: own) (m :: P)); [apply Hf|apply Hj|by right]).
      apply elem_of_cons in Hin as [Hin|?]; [unfold m in Hin; lia|done].
  - destruct Hf as [Ht Hf]. destruct (decide (u = t)) as [->|Hne]; [done|]. eapply IHk; [exact Hf|exact Hj|]. apply elem_of_list_filter. by split.
  - eapply IHk; [exact Hf|exact Hj|done].
  - eapply IHk; [exact Hf|exact Hj|done].
Qed.

Lemma sum_list_insert l : ∀ (i : nat) e e', l !! i = Some e → sum_list (<[i := e']> l) + e = sum_list l + e'.
Proof.
  induction l as [|x l IH]; intros [|i] e e' H; cbn in *; [done|done| |].
  - injection H as ->. lia.
  - rewrite <-!Nat.add_assoc. f_equal. exact (IH i e e' H).
Qed.
Lemma sum_list_zeros n : sum_list (replicate n 0) = 0.
Proof. induction n; done. Qed.

(** * The weight of a task that was submitted lately *)

Lemma weight_late ow x t : finv ow x → (∀ v p, parent_of (fl_tasks x) v = Some p → p < v) →
  cnt (wq (fl_tasks x) t) (fl_q x) + cnt (wf (fl_tasks x) t) (fl_f x) ≤ length (fl_tasks x) - t.
Proof.
  intros I Hpar. pose proof (i_g _ _ I) as G.
  assert (∀ q, cnt (wq (fl_tasks x) t) q ≤ length (filter (λ v, t ≤ v) q)) as Hq.
  { intros q. induction q as [|v q IH]; [done|]. cbn [sum_list_with]. rewrite filter_cons. unfold wq at 1. destruct (decide (v = t ∨ parent_of (fl_tasks x) v = Some t)) as [Hv|Hv].
    - rewrite decide_True; [cbn [length]; lia|]. destruct Hv as [->|Hv%Hpar]; lia.
    - case_decide; cbn [length]; lia. }
  assert (∀ f, (∀ fr, fr ∈ f → fr ∈ fl_f x) → cnt (wf (fl_tasks x) t) f ≤ length (filter (λ v, t ≤ v) (omap f_task f))) as Hf.
  { intros f. induction f as [|[o pc] f IH]; intros Hin; [done|]. cbn [sum_list_with omap list_omap f_task]. assert (Frame o pc ∈ fl_f x) as Hfr by (apply Hin; left).
    specialize (IH (λ fr H, Hin fr (elem_of_list_further _ _ _ H))).
    destruct o as [v|]; [|exact IH]. rewrite filter_cons. pose proof (wf_le (fl_tasks x) t (Frame (Some v) pc)) as Hle.
    destruct (decide (wf (fl_tasks x) t (Frame (Some v) pc) = 0)) as [E|E]; [rewrite E; case_decide; cbn [length]; lia|].
    rewrite decide_True; [cbn [length]; lia|]. unfold wf in E. cbn in E.
    assert (v = t ∨ parent_of (fl_tasks x) v = Some t) as [->|Hv%Hpar]; [|lia|lia].
    destruct pc as [p|z|z]; [unfold wq in E| |]; case_decide as Hd; try done.
    - destruct Hd as [->|[_ ?]]; [|by right]. destruct (i_pc _ _ I v t) as [?|?]; [by left|by left|by right].
    - right. apply Hd. }
  specialize (Hq (fl_q x)). specialize (Hf (fl_f x) (λ _ H, H)).
  enough (length (filter (λ v, t ≤ v) (omap f_task (fl_f x) ++ fl_q x)) ≤ length (fl_tasks x) - t) as H.
  { rewrite filter_app, app_length in H. lia. }
  rewrite <-(seq_length (length (fl_tasks x) - t) t). apply submseteq_length, NoDup_submseteq.
  - apply NoDup_filter, NoDup_app. split_and!.
    + apply omap_task_nodup, G.
    + intros v Hv Hvq. apply elem_of_list_omap in Hv as ([o pc] & Hfr & Hv). cbn in Hv. subst o.
      destruct (ginv_f_lt _ _ _ G Hfr) as (_ & _ & Hn). done.
    + pose proof (ginv_nd _ G) as Hnd. by apply NoDup_app in Hnd as (_ & _ & ?).
  - intros v [Hle Hv]%elem_of_list_filter. apply elem_of_seq. assert (v < length (fl_tasks x)); [|lia].
    apply elem_of_app in Hv as [Hv|Hv]; [|by eapply ginv_q_lt]. apply elem_of_list_omap in Hv as ([o pc] & Hfr & Hv). cbn in Hv. subst o. by eapply ginv_f_lt.
Qed.

Lemma zero_done_late ow x t y : finv ow x → (∀ v p, parent_of (fl_tasks x) v = Some p → p < v) →
  (N.of_nat (length (fl_tasks x) - t) < ctr_mod)%N →
  fl_tasks x !! t = Some y → t_parent y = None → t_ctr y = 0%N →
  ∀ v z, fl_tasks x !! v = Some z → v = t ∨ t_parent z = Some t → t_done z = true.
Proof.
  intros I Hpar Hlen Hy Hyp Hy0 v z Hz Hvt. pose proof (i_g _ _ I) as G. pose proof (weight_late ow x t I Hpar) as Hw.
  rewrite (i_root _ _ I t y Hy Hyp), N.mod_small in Hy0 by lia.
  assert (wq (fl_tasks x) t v = 1) as Hq1.
  { unfold wq. rewrite decide_True; [done|]. destruct Hvt as [->|Hp]; [by left|right]. by eapply parent_of_Some. }
  destruct (t_done z) eqn:Hd; [done|]. exfalso. destruct (g_done _ G v z Hz Hd) as [Hin|[p Hin]].
  - pose proof (cnt_elem (wq (fl_tasks x) t) _ _ Hin). lia.
  - pose proof (cnt_elem (wf (fl_tasks x) t) _ _ Hin) as H. change (wf _ t (Frame (Some v) (FRun p))) with (wq (fl_tasks x) t v) in H. lia.
Qed.

(** * The invariant *)

Section parts.
  Context (M : nat) (HM : (N.of_nat M < ctr_mod)%N).

  Definition part (p : prog) : Prop := fork_join [] p ∧ joined [] p ∧ submits M p.

  (** The main program is inside a part, of which at most [a] tasks are still to come; the tasks it waits for are tasks of the part. *)
  Definition in_part (b a : nat) (p : prog) : Prop := ∃ q rest own, p = seq_prog q (one_after_other rest) ∧ Forall part rest ∧
    fork_join own q ∧ (∀ u, u ∈ own → b ≤ u) ∧ submits a q.

  (** The tasks of the current part begin with [b]; [bud] is how many tasks each task may still submit. *)
  Record kinv (ow : list (option nat)) (b a : nat) (bud : list nat) (x : flat) : Prop := {
    k_b : b ≤ length (fl_tasks x);
    k_old : ∀ v y, fl_tasks x !! v = Some y → v < b → t_done y = true;
    k_own : ∀ v o, ow !! v = Some (Some o) → o < v;
    k_par : ∀ v p, parent_of (fl_tasks x) v = Some p → p < v;
    k_bud : length bud = length (fl_tasks x);
    k_q : ∀ v c, v ∈ fl_q x → fl_progs x !! v = Some c → ∃ e, bud !! v = Some e ∧ submits e c;
    k_f : ∀ v p, Frame (Some v) (FRun p) ∈ fl_f x → ∃ e, bud !! v = Some e ∧ submits e p;
    k_main : ∀ p, Frame None (FRun p) ∈ fl_f x → in_part b a p;
    k_sum : length (fl_tasks x) + a + sum_list bud ≤ b + M }.

  Lemma one_after_fork_join ps : Forall part ps → fork_join [] (one_after_other ps).
  Proof. induction 1 as [|p ps [Hp _] _ IH]; [done|]. by apply fork_join_seq. Qed.

  Lemma same_main x p p' : ginv x → Frame None (FRun p) ∈ fl_f x → Frame None (FRun p') ∈ fl_f x → p = p'.
  Proof.
    intros G H1 H2. pose proof (g_nodup _ G) as Hnd. apply elem_of_Permutation in H1 as [f0 Hf]. rewrite Hf in H2.
    apply elem_of_cons in H2 as [[= ->]|H2]; [done|]. rewrite Hf in Hnd. cbn in Hnd. apply NoDup_cons in Hnd as [Hn _].
    destruct Hn. apply elem_of_list_fmap. by exists (Frame None (FRun p')).
  Qed.

  (** Between two parts all tasks are done. *)
  Lemma between_done ow x rest : finv ow x → jinv ow x → Forall part rest → Frame None (FRun (one_after_other rest)) ∈ fl_f x →
    ∀ v y, fl_tasks x !! v = Some y → t_done y = true.
  Proof.
    intros I J Hr Hin. apply (closed_all_done ow x I J). intros u r Hu. destruct (j_run _ _ J _ _ Hin) as (P & HP & Ho).
    pose proof (joined_fresh _ [] P (one_after_fork_join rest Hr) HP r (Ho u r Hu)) as Hn. by apply elem_of_nil in Hn.
  Qed.

  Lemma next_part ow b a bud x r rest : finv ow x → jinv ow x → kinv ow b a bud x → part r → Forall part rest →
    Frame None (FRun (seq_prog r (one_after_other rest))) ∈ fl_f x →
    kinv ow (length (fl_tasks x)) M (replicate (length (fl_tasks x)) 0) x.
  Proof.
    intros I J K Hr Hrest Hin. pose proof (i_g _ _ I) as G.
    pose proof (between_done ow x (r :: rest) I J ltac:(by constructor) Hin) as Hd.
    split; [lia|intros v y Hy _; by eapply Hd|apply K|apply K|by rewrite replicate_length| | | |rewrite sum_list_zeros; lia].
    - intros v c Hv _. exfalso. destruct (lookup_lt_is_Some_2 (fl_tasks x) v) as [y Hy]; [by eapply ginv_q_lt|].
      destruct (g_undone _ G v y Hy (Hd v y Hy)) as [Hs _]. by apply (ginv_disj _ v G) in Hs.
    - intros v p Hp. exfalso. destruct (ginv_f_lt _ _ _ G Hp) as (Hlt & _). destruct (lookup_lt_is_Some_2 _ _ Hlt) as [y Hy].
      destruct (g_undone _ G v y Hy (Hd v y Hy)) as [_ Hn]. by apply Hn in Hp.
    - intros p Hp. rewrite (same_main x _ _ G Hp Hin). exists r, rest, []. destruct Hr as (H1 & H2 & H3).
      split_and!; [done|done|done|by intros u ?%elem_of_nil|done].
  Qed.

  (** The part of the main program has something left to do, or the program has ended. *)
  Definition in_part' (b a : nat) (p : prog) : Prop := ∃ q rest own, p = seq_prog q (one_after_other rest) ∧ Forall part rest ∧
    fork_join own q ∧ (∀ u, u ∈ own → b ≤ u) ∧ submits a q ∧ (q = PDone → rest = []).

  Lemma normal ow b a bud x : finv ow x → jinv ow x → kinv ow b a bud x →
    ∃ b' a' bud', kinv ow b' a' bud' x ∧ ∀ p, Frame None (FRun p) ∈ fl_f x → in_part' b' a' p.
  Proof.
    intros I J K. pose proof (i_g _ _ I) as G.
    destruct (decide (Exists (λ fr, f_task fr = None) (fl_f x))) as [Hm|Hm].
    2: { exists b, a, bud. split; [done|]. intros p Hp. destruct Hm. apply Exists_exists. by eexists. }
    apply Exists_exists in Hm as ([o pc] & Hin & Ho). cbn in Ho. subst o. destruct (i_main _ _ I _ Hin) as [p ->].
    destruct (k_main _ _ _ _ _ K p Hin) as (q & rest & own & Hp & Hrest & Hf & Hown & Hs).
    revert b a bud q own K Hp Hf Hown Hs. induction Hrest as [|r rest Hr Hrest IH]; intros b a bud q own K Hp Hf Hown Hs.
    - exists b, a, bud. split; [done|]. intros p' Hp'. rewrite (same_main x _ _ G Hp' Hin). exists q, [], own. split_and!; done.
    - assert (q = PDone ∨ q ≠ PDone) as [Hq|Hq] by (destruct q; [by left|by right..]).
      + subst q. eapply (IH _ _ _ r []); [eapply next_part; [done|done|exact K|exact Hr|exact Hrest|]|exact Hp|apply Hr|by intros u ?%elem_of_nil|apply Hr].
        rewrite Hp in Hin. exact Hin.
      + exists b, a, bud. split; [done|]. intros p' Hp'. rewrite (same_main x _ _ G Hp' Hin). exists q, (r :: rest), own. split_and!; [done|by constructor|done|done|done|done].
  Qed.

  Lemma k_waits ow b a bud x : finv ow x → kinv ow b a bud x → (∀ p, Frame None (FRun p) ∈ fl_f x → in_part' b a p) → waits_end x.
  Proof.
    intros I K Hm o t k y Hin Hy Hyp Hz. pose proof (i_g _ _ I) as G. eapply (zero_done_late ow x t y I (k_par _ _ _ _ _ K)); [|done|done|done].
    pose proof (k_sum _ _ _ _ _ K). enough (b ≤ t) by lia. destruct o as [v|].
    - destruct (i_run _ _ I _ _ Hin) as (own & [Ht _] & Hown). destruct (Hown t Ht) as [Ho _]. apply (k_own _ _ _ _ _ K) in Ho.
      destruct (decide (v < b)) as [Hv|Hv]; [|lia]. exfalso. destruct (ginv_f_lt _ _ _ G Hin) as (Hlt & _). destruct (lookup_lt_is_Some_2 _ _ Hlt) as [z Hz'].
      destruct (g_undone _ G v z Hz') as [_ Hn]; [by eapply k_old|]. by apply Hn in Hin.
    - destruct (Hm _ Hin) as (q & rest & own & Hp & Hrest & Hf & Hown & Hs & Hd). destruct q; cbn in Hp; try done.
      + rewrite Hd in Hp by done. done.
      + injection Hp as -> _. apply Hown, Hf.
  Qed.

  Lemma kinv_gen ow b a bud ts ps st q f ts' st' q' f' : kinv ow b a bud (Flat ts ps st q f) →
    length ts' = length ts → (∀ v, parent_of ts' v = parent_of ts v) →
    (∀ v y', ts' !! v = Some y' → ∃ y, ts !! v = Some y ∧ (t_done y = true → t_done y' = true)) → (∀ v, v ∈ q' → v ∈ q) →
    (∀ v p, Frame (Some v) (FRun p) ∈ f' → Frame (Some v) (FRun p) ∈ f ∨ ∃ e, bud !! v = Some e ∧ submits e p) →
    (∀ p, Frame None (FRun p) ∈ f' → Frame None (FRun p) ∈ f ∨ in_part b a p) →
    kinv ow b a bud (Flat ts' ps st' q' f').
  Proof.
    intros [K1 K2 K3 K4 K5 K6 K7 K8 K9] Hl Hp Ht Hq Hf Hm. cbn in *. split; cbn; rewrite ?Hl; try done.
    - intros v y Hy Hv. destruct (Ht v y Hy) as (y0 & Hy0 & H). by eapply H, K2.
    - intros v p. rewrite Hp. apply K4.
    - intros v c Hv. by apply K6, Hq.
    - intros v p Hin. destruct (Hf v p Hin) as [H|H]; [by apply K7|done].
    - intros p Hin. destruct (Hm p Hin) as [H|H]; [by apply K8|done].
  Qed.

  Lemma alter_done (g : task → task) (i : nat) (ts : list task) (v : nat) y' : (∀ z : task, t_done z = true → t_done (g z) = true) → alter g i ts !! v = Some y' →
    ∃ y, ts !! v = Some y ∧ (t_done y = true → t_done y' = true).
  Proof.
    intros Hg H. destruct (decide (v = i)) as [->|Hne].
    - rewrite list_lookup_alter in H. destruct (ts !! i) as [y|] eqn:E; [|done]. injection H as <-. exists y. split; [done|apply Hg].
    - rewrite list_lookup_alter_ne in H by done. by exists y'.
  Qed.

  Lemma kinv_step l ow b a bud x y : fstep l x y → finv ow x → kinv ow b a bud x → (∀ p, Frame None (FRun p) ∈ fl_f x → in_part' b a p) →
    ∃ a' bud', kinv (ow ++ option_list l) b a' bud' y.
  Proof.
    intros Hs I K Hm. pose proof (i_g _ _ I) as G.
    destruct Hs as [ts ps st q f o c p k f0 q' f' Hf Hq Hf'|ts ps st q f v c q' f' Hq Hc Hf'
    |ts ps st q f v f0 f' Hf Hf'|ts ps st q f f' Hf|ts ps st q f o t k f0 f' x Hf Hf' Hx Hz|ts ps st q f o k f0 f' Hf Hf'|ts ps st q f o j k f0 f' Hf Hf'
    |ts ps st q f o t f0 f' Hf Hf'|ts ps st q f o t f0 f' x p Hf Hf' Hx Hz Hp|ts ps st q f o t f' x Hf Hx Hz]; cbn [option_list]; rewrite ?app_nil_r.
    - assert (Frame o (FRun (PSubmit c p k)) ∈ f) as Hin by (rewrite Hf; left).
      pose proof (i_ow _ _ I) as Hol. cbn in Hol. destruct K as [K1 K2 K3 K4 K5 K6 K7 K8 K9]. cbn in K1, K2, K3, K4, K5, K6, K7, K8, K9, Hm.
      assert (∀ u, p = Some u → u < length ts) as Hpl.
      { intros u ->. destruct (i_run _ _ I _ _ Hin) as (own & [Hu _] & Hown). destruct (Hown u Hu) as [Hu' _]. rewrite <-Hol. by eapply lookup_lt_Some. }
      assert (∃ a' bud0 e, length bud0 = length ts ∧ length ts + S (a' + (sum_list bud0 + e)) ≤ b + M ∧ submits e c ∧
        (∀ v, o ≠ Some v → bud0 !! v = bud !! v) ∧ (∀ v, o = Some v → ∃ e', bud0 !! v = Some e' ∧ submits e' (k (length ts))) ∧
        (o ≠ None → a' = a) ∧ (o = None → in_part b a' (k (length ts)))) as (a' & bud0 & e & B1 & B2 & B3 & B4 & B5 & B6 & B7).
      { destruct o as [v|].
        - destruct (K7 v _ Hin) as (e0 & He0 & Hsb). inversion Hsb as [|? ea eb ? ? ? Hea Heb Hlt| | |]; subst.
          exists a, (<[v := eb]> bud), ea. split_and!.
          + by rewrite insert_length.
          + pose proof (sum_list_insert bud v e0 eb He0). lia.
          + done.
          + intros u Hu. apply list_lookup_insert_ne. congruence.
          + intros u [= <-]. exists eb. split; [|done]. apply list_lookup_insert. by eapply lookup_lt_Some.
          + done.
          + done.
        - destruct (Hm _ Hin) as (q0 & rest & own & Hp & Hrest & Hfj & Hown & Hsb & Hd). destruct q0 as [|c0 p0 k0| | |]; cbn in Hp; try done; [by rewrite Hd in Hp|].
          injection Hp as -> -> ->. inversion Hsb as [|? ea eb ? ? ? Hea Heb Hlt| | |]; subst.
          exists eb, bud, ea. split_and!; [done|lia|done|done|done|done|]. intros _.
          exists (k0 (length ts)), rest, (match p0 with None => length ts :: own | Some _ => own end). split_and!; [done|done| | |done].
          + destruct p0; cbn in Hfj; naive_solver.
          + destruct p0; [done|]. intros u [->|Hu]%elem_of_cons; [done|by apply Hown]. }
      exists a', (bud0 ++ [e]). split; cbn.
      + rewrite app_length, count_in_length. lia.
      + intros v y Hy Hv. rewrite lookup_app_l in Hy by (rewrite count_in_length; lia). destruct p as [p|]; [|by eapply K2].
        cbn in Hy. destruct (alter_done _ _ _ _ _ (λ z (H : t_done z = true), (H : t_done (upd_ctr inc16 z) = true)) Hy) as (y0 & Hy0 & Hyd). by eapply Hyd, K2.
      + intros v u. destruct (decide (v < length ow)) as [Hv|Hv]; [rewrite lookup_app_l by done; apply K3|].
        rewrite lookup_app_r by lia. intros Hu. apply list_lookup_singleton_Some in Hu as [Hv0 Hu].
        destruct o as [o|]; [|done]. injection Hu as <-. destruct (ginv_f_lt _ _ _ G Hin) as (Hlt & _). cbn in Hlt. lia.
      + intros v u. destruct (decide (v < length ts)) as [Hv|Hv]; [rewrite parent_of_old by done; apply K4|]. intros Hu.
        pose proof (parent_of_lt _ _ _ Hu) as Hlt. rewrite app_length, count_in_length in Hlt. cbn in Hlt. assert (v = length ts) as -> by lia.
        rewrite parent_of_new in Hu. by apply Hpl.
      + rewrite !app_length, count_in_length. cbn. lia.
      + intros v cv. rewrite Hq. pose proof (g_len _ G) as Hpsl. cbn in Hpsl. intros [->|Hv]%elem_of_cons Hcv.
        * exists e. rewrite lookup_app_r in Hcv by lia. rewrite Hpsl, Nat.sub_diag in Hcv. injection Hcv as <-.
          split; [|done]. rewrite lookup_app_r by lia. by rewrite B1, Nat.sub_diag.
        * assert (v < length ts) as Hlt by (by eapply (ginv_q_lt _ v G)). rewrite lookup_app_l in Hcv by lia.
          rewrite lookup_app_l by lia. rewrite B4; [by apply K6|]. intros ->. destruct (ginv_f_lt _ _ _ G Hin) as (_ & _ & Hn). by apply Hn.
      + intros v pv. rewrite Hf'. intros [[= <- ->]|Hv]%elem_of_cons.
        * destruct (B5 v eq_refl) as (e' & He' & Hs'). exists e'. split; [|done]. rewrite lookup_app_l; [done|]. by eapply lookup_lt_Some.
        * assert (Frame (Some v) (FRun pv) ∈ f) as Hvf by (rewrite Hf; by right). destruct (ginv_f_lt _ _ _ G Hvf) as (Hlt & _). cbn in Hlt.
          rewrite lookup_app_l by lia. rewrite B4; [by apply K7|]. intros ->.
          pose proof (g_nodup _ G) as Hnd. cbn in Hnd. by eapply (not_two_frames f f0 (Some v)).
      + intros pm. rewrite Hf'. intros [[= <- ->]|Hv]%elem_of_cons; [by apply B7|].
        assert (Frame None (FRun pm) ∈ f) as Hvf by (rewrite Hf; by right). destruct o as [o|].
        * rewrite B6 by done. by apply K8.
        * exfalso. pose proof (g_nodup _ G) as Hnd. cbn in Hnd. by eapply (not_two_frames f f0 None).
      + rewrite app_length, count_in_length. cbn. rewrite sum_list_with_app. cbn. lia.
    - exists a, bud. eapply kinv_gen; [exact K|done|done|by eauto|intros u Hu; rewrite Hq; by right| |].
      + intros u p. rewrite Hf'. intros [[= -> ->]|H]%elem_of_cons; [right|by left]. apply (k_q _ _ _ _ _ K); [cbn; rewrite Hq; left|done].
      + intros p. rewrite Hf'. intros [[=]|H]%elem_of_cons. by left.
    - exists a, bud. eapply kinv_gen; [exact K|by rewrite alter_length|intros u; by apply parent_of_alter|intros u y'; by apply alter_done|done| |].
      + intros u p. rewrite Hf', Hf. intros [[=]|H]%elem_of_cons. left. by right.
      + intros p. rewrite Hf', Hf. intros [[=]|H]%elem_of_cons. left. by right.
    - exists a, bud. eapply kinv_gen; [exact K|done|done|by eauto|done| |].
      + intros u p H. left. rewrite Hf. by right.
      + intros p H. left. rewrite Hf. by right.
    - exists a, bud. assert (Frame o (FRun (PWait t k)) ∈ f) as Hin by (rewrite Hf; left). eapply kinv_gen; [exact K|done|done|by eauto|done| |].
      + intros u p. rewrite Hf'. intros [[= <- ->]|H]%elem_of_cons; [right|left; rewrite Hf; by right].
        destruct (k_f _ _ _ _ _ K u _ Hin) as (e & He & Hsb). exists e. split; [done|]. by inversion Hsb.
      + intros p. rewrite Hf'. intros [[= <- ->]|H]%elem_of_cons; [right|left; rewrite Hf; by right].
        destruct (Hm _ Hin) as (q0 & rest & own & Hp & Hrest & Hfj & Hown & Hsb & Hd). destruct q0; cbn in Hp; try done; [by rewrite Hd in Hp|].
        injection Hp as -> ->. exists q0, rest, own. split_and!; [done|done|apply Hfj|done|by inversion Hsb].
    - exists a, bud. assert (Frame o (FRun (PStop k)) ∈ f) as Hin by (rewrite Hf; left). eapply kinv_gen; [exact K|done|done|by eauto|done| |].
      + intros u p. rewrite Hf'. intros [[= <- ->]|H]%elem_of_cons; [right|left; rewrite Hf; by right].
        destruct (k_f _ _ _ _ _ K u _ Hin) as (e & He & Hsb). exists e. split; [done|]. by inversion Hsb.
      + intros p. rewrite Hf'. intros [[= <- ->]|H]%elem_of_cons; [right|left; rewrite Hf; by right].
        destruct (Hm _ Hin) as (q0 & rest & own & Hp & Hrest & Hfj & Hown & Hsb & Hd). destruct q0; cbn in Hp; try done; [by rewrite Hd in Hp|].
        injection Hp as ->. exists q0, rest, own. split_and!; [done|done|apply Hfj|done|by inversion Hsb].
    - exists a, bud. assert (Frame o (FRun (PAct j k)) ∈ f) as Hin by (rewrite Hf; left). eapply kinv_gen; [exact K|done|done|by eauto|done| |].
      + intros u p. rewrite Hf'. intros [[= <- ->]|H]%elem_of_cons; [right|left; rewrite Hf; by right].
        destruct (k_f _ _ _ _ _ K u _ Hin) as (e & He & Hsb). exists e. split; [done|]. by inversion Hsb.
      + intros p. rewrite Hf'. intros [[= <- ->]|H]%elem_of_cons; [right|left; rewrite Hf; by right].
        destruct (Hm _ Hin) as (q0 & rest & own & Hp & Hrest & Hfj & Hown & Hsb & Hd). destruct q0; cbn in Hp; try done; [by rewrite Hd in Hp|].
        injection Hp as -> ->. exists q0, rest, own. split_and!; [done|done|apply Hfj|done|by inversion Hsb].
    - exists a, bud. eapply kinv_gen; [exact K|by rewrite alter_length|intros u; by apply parent_of_alter|intros u y'; by apply alter_done|done| |].
      + intros u p. rewrite Hf', Hf. intros [[=]|H]%elem_of_cons. left. by right.
      + intros p. rewrite Hf', Hf. intros [[=]|H]%elem_of_cons. left. by right.
    - exists a, bud. eapply kinv_gen; [exact K|done|done|by eauto|done| |].
      + intros u p'. rewrite Hf', Hf. intros [[=]|H]%elem_of_cons. left. by right.
      + intros p'. rewrite Hf', Hf. intros [[=]|H]%elem_of_cons. left. by right.
    - exists a, bud. eapply kinv_gen; [exact K|done|done|by eauto|done| |].
      + intros u p H. left. rewrite Hf. by right.
      + intros p H. left. rewrite Hf. by right.
  Qed.

  Lemma reach_kinv n ps s : Forall part ps → pool_reach n (one_after_other ps) s →
    ∃ ow b a bud, finv ow (flat_of (core_of s)) ∧ jinv ow (flat_of (core_of s)) ∧ kinv ow b a bud (flat_of (core_of s)).
  Proof.
    intros Hps. pose proof (one_after_fork_join ps Hps) as Hfj. induction 1 as [|s w v s' Hr IH Hst].
    - exists [], 0, 0, []. rewrite flat_start. split_and!.
      + rewrite <-(flat_start n). by apply pinv_start.
      + split; cbn; [|done|by intros u o r (z & Hz & _)].
        intros o p [= -> ->]%elem_of_list_singleton. exists []. split; [|by intros u r (z & Hz & _)].
        clear -Hps. induction Hps as [|p ps (_ & Hp & _) _ IH]; [done|]. by apply (joined_seq _ _ [] []).
      + split; cbn; try done; try lia.
        * by intros v p ?%elem_of_list_singleton.
        * intros p [= ->]%elem_of_list_singleton. exists PDone, ps, []. split_and!; [done|done|done|by intros u ?%elem_of_nil|constructor].
    - destruct IH as (ow & b & a & bud & I & J & K). apply pool_step_core in Hst as [E|[l Hc]].
      { rewrite E. by exists ow, b, a, bud. }
      pose proof (cstep_flat _ _ _ _ Hc) as Hf. destruct (normal ow b a bud _ I J K) as (b' & a' & bud' & K' & Hm).
      destruct (kinv_step l ow b' a' bud' _ _ Hf I K' Hm) as (a2 & bud2 & K2).
      exists (ow ++ option_list l), b', a2, bud2. split_and!; [by eapply finv_step| |done].
      eapply jinv_step_gen; [exact Hf|done|by eapply k_waits|done].
  Qed.

  Lemma reach_waits n ps s : Forall part ps → pool_reach n (one_after_other ps) s → waits_end (flat_of (core_of s)).
  Proof.
    intros Hps Hr. destruct (reach_kinv n ps s Hps Hr) as (ow & b & a & bud & I & J & K).
    destruct (normal ow b a bud _ I J K) as (b' & a' & bud' & K' & Hm). by eapply k_waits.
  Qed.

  (** The actions of a run in which the main program has returned. *)
  Lemma parts_end n ps tr s : Forall part ps → pool_run (pool_start n (one_after_other ps)) tr s → returned s → ends [] (one_after_other ps) tr.
  Proof.
    intros Hps Hr Hret. destruct (reach_kinv n ps _ Hps (pr_init _ _)) as (ow & b & a & bud & I & J & _).
    destruct (run_future_gen _ _ _ Hr ow I J) as (T & [_ F2] & [HS _]).
    - intros t1 s1 t2 ow1 H1 _ _. eapply reach_waits; [done|]. eapply run_reach; [apply pr_init|exact H1].
    - intros [p Hp]. by apply (Hret p).
    - rewrite flat_start in F2, HS. specialize (HS ltac:(eexists; left)). rewrite <-HS. apply F2. left.
  Qed.

  (** A task that is not done is one of the last [M] tasks. *)
  Lemma undone_late n ps s t y : Forall part ps → pool_reach n (one_after_other ps) s → p_tasks s !! t = Some y → t_done y = false →
    length (p_tasks s) ≤ t + M.
  Proof.
    intros Hps Hr Hy Hd. destruct (reach_kinv n ps s Hps Hr) as (ow & b & a & bud & I & J & K).
    pose proof (k_sum _ _ _ _ _ K) as Hs. cbn in Hs. destruct (decide (t < b)) as [Hb|Hb]; [|lia].
    rewrite (k_old _ _ _ _ _ K t y Hy Hb) in Hd. done.
  Qed.
End parts.
