(** Histories of the thread pool: where queued tasks and calls are, why a fork-join program can always go on,
    and why no program makes calls forever. *)
From Verif Require Import Base Task ThreadPool ThreadPoolProofs.
Ltac Zify.zify_post_hook ::= Z.div_mod_to_equations.
Local Open Scope nat_scope.

(** * All programs *)

Lemma core_start n main : core_of (pool_start n main) =
  Core [] [] [] ([] :: replicate (n - 1) []) ([Frame None (FRun main)] :: replicate (n - 1) []).
Proof. unfold core_of. cbn. by rewrite !fmap_replicate. Qed.
Lemma concat_nils {A} n : concat (replicate n (@nil A)) = [].
Proof. induction n; done. Qed.
Lemma flat_start n main : flat_of (core_of (pool_start n main)) = Flat [] [] [] [] [Frame None (FRun main)].
Proof. rewrite core_start. unfold flat_of. cbn. by rewrite !concat_nils. Qed.

Lemma ginv_start main : ginv (Flat [] [] [] [] [Frame None (FRun main)]).
Proof.
  constructor; cbn; try done.
  - apply NoDup_singleton.
  - by intros v ?%elem_of_list_singleton.
Qed.
Lemma reach_ginv n main s : pool_reach n main s → ginv (flat_of (core_of s)).
Proof.
  induction 1 as [|s w v s' _ IH Hst].
  - rewrite flat_start. apply ginv_start.
  - apply pool_step_core in Hst as [->|[l Hc]]; [done|]. by eapply ginv_step; [eapply cstep_flat|].
Qed.

(** * Fork-join programs *)

(** The calls on a stack, innermost first: the main program only at the bottom, the others in the order in which
    they were started. *)
Definition stack_ok (sd : list nat) (l : list (option nat)) : Prop :=
  ∀ (i j : nat) a b, i < j → l !! i = Some a → l !! j = Some b →
    ∃ va, a = Some va ∧ ∀ vb, b = Some vb → before sd vb va.

Record pinv (ow : list (option nat)) (c : core) : Prop := {
  p_f : finv ow (flat_of c);
  p_len : length (c_qs c) = length (c_ss c);
  p_stack : ∀ (w : nat) st, c_ss c !! w = Some st → stack_ok (c_started c) (f_task <$> st);
  p_queue : ∀ (w : nat) st q o v, c_ss c !! w = Some st → c_qs c !! w = Some q → o ∈ (f_task <$> st) →
    ow !! v = Some o → v ∉ c_started c → v ∈ q }.

Lemma stack_ok_grow sd sd' l : stack_ok sd l → stack_ok (sd ++ sd') l.
Proof.
  intros H i j a b Hij Ha Hb. destruct (H i j a b Hij Ha Hb) as (va & -> & Hv). exists va. split; [done|].
  intros vb ->. by apply before_app, Hv.
Qed.
Lemma stack_ok_tail sd a l : stack_ok sd (a :: l) → stack_ok sd l.
Proof. intros H i j x y Hij Hx Hy. apply (H (S i) (S j)); [lia|done|done]. Qed.

Lemma elem_of_concat {A} (l : list (list A)) x : x ∈ concat l ↔ ∃ (i : nat) y, l !! i = Some y ∧ x ∈ y.
Proof.
  induction l as [|z l IH]; cbn.
  - split; [by intros ?%elem_of_nil|]. by intros (i & y & ? & _).
  - rewrite elem_of_app, IH. split.
    + intros [H|(i & y & Hy & Hx)]; [by exists 0, z|by exists (S i), y].
    + intros ([|i] & y & Hy & Hx); cbn in Hy; [left; congruence|right; eauto].
Qed.
Lemma concat_nodup_same {A B} (g : A → B) (l : list (list A)) (i j : nat) x y b : NoDup (g <$> concat l) →
  l !! i = Some x → l !! j = Some y → b ∈ (g <$> x) → b ∈ (g <$> y) → i = j.
Proof.
  revert i j. induction l as [|z l IH]; [done|]. cbn. rewrite fmap_app. intros i j (_ & Hd & Hnd)%NoDup_app Hi Hj Hx Hy.
  assert (∀ k u, l !! k = Some u → b ∈ (g <$> u) → b ∈ (g <$> concat l)) as Hc.
  { intros k u Hk Hu. apply elem_of_list_fmap in Hu as (e & -> & He). apply elem_of_list_fmap. exists e. split; [done|].
    apply elem_of_concat. by exists k, u. }
  destruct i as [|i], j as [|j]; cbn in Hi, Hj.
  - done.
  - injection Hi as ->. exfalso. by eapply Hd, Hc.
  - injection Hj as ->. exfalso. by eapply Hd, Hc.
  - f_equal. by apply (IH i j).
Qed.

Lemma pinv_step l ow c w c' : cstep l c w c' → pinv ow c → pinv (ow ++ option_list l) c'.
Proof.
  intros Hc [If Il Is Iq]. pose proof (finv_step l ow _ _ (cstep_flat _ _ _ _ Hc) If) as If'.
  pose proof (i_g _ _ If) as G.
  destruct Hc as
    [ts ps sd qs ss w o cc p k st q Hs Hq|ts ps sd qs ss w st j q1 u q2 cc Hs Hq Hc
         |ts ps sd qs ss w o pc st ts' pc' Hs Hg|ts ps sd qs ss w fr st Hs Hg]; cbn in *.
  - constructor; cbn; [done|by rewrite !insert_length| |].
    + intros w1 st1 [(<- & <- & _)|[_ H1]]%list_lookup_insert_Some; [by apply (Is w _ Hs)|by apply (Is w1)].
    + intros w1 st1 qq o1 v Hs1 Hq1 Ho1 Hv Hnv.
      assert (∃ st2 q2, ss !! w1 = Some st2 ∧ qs !! w1 = Some q2 ∧ (f_task <$> st2 = f_task <$> st1) ∧
        (∀ v, v ∈ q2 → v ∈ qq) ∧ (w1 = w → length ts ∈ qq)) as (st2 & q2 & Hs2 & Hq2 & Hst2 & Hin & Hnew).
      { apply list_lookup_insert_Some in Hs1 as [(<- & <- & _)|[Hne H1]].
        - rewrite list_lookup_insert in Hq1 by (by eapply lookup_lt_Some). injection Hq1 as <-.
          exists (Frame o (FRun (PSubmit cc p k)) :: st), q. repeat split; try done.
          + intros v1 Hv1. apply elem_of_app. by left.
          + intros _. apply elem_of_app. right. left.
        - rewrite list_lookup_insert_ne in Hq1 by done. by exists st1, qq. }
      rewrite <-Hst2 in Ho1. apply lookup_app_Some in Hv as [Hv|[Hle Hv]].
      * by apply Hin, (Iq w1 st2 q2 o1 v).
      * apply list_lookup_singleton_Some in Hv as [Hv <-].
        pose proof (i_ow _ _ If) as Hlo. cbn in Hlo. assert (v = length ts) as -> by lia. apply Hnew.
        eapply (concat_nodup_same f_task ss); [exact (g_nodup _ G)|exact Hs2|exact Hs|exact Ho1|left].
  - rewrite app_nil_r in *. assert (u ∈ concat qs) as Huq.
    { apply elem_of_concat. exists j, (q1 ++ u :: q2). split; [done|]. apply elem_of_app. right. left. }
    assert (u ∉ sd) as Hus by (intros H; by apply (ginv_disj _ u G) in H).
    assert (∀ w1 st1, ss !! w1 = Some st1 → ∀ v, Some v ∈ (f_task <$> st1) → v ∈ sd) as Hsd.
    { intros w1 st1 H1 v Hv. apply (g_started _ G). cbn. apply elem_of_list_fmap in Hv as (fr & Hfr & Hv).
      apply elem_of_list_fmap. exists fr. split; [done|]. apply elem_of_concat. by exists w1, st1. }
    constructor; cbn; [done|by rewrite !insert_length| |].
    + intros w1 st1 [(<- & <- & _)|[_ H1]]%list_lookup_insert_Some; [|by apply stack_ok_grow, (Is w1)].
      intros i1 j1 a b Hij Ha Hb. destruct j1 as [|j1]; [lia|]. cbn in Hb. destruct i1 as [|i1]; cbn in Ha.
      * injection Ha as <-. exists u. split; [done|]. intros vb ->. apply before_snoc.
        eapply (Hsd w st Hs). by eapply elem_of_list_lookup_2.
      * eapply stack_ok_grow; [exact (Is w st Hs)| |exact Ha|exact Hb]. lia.
    + intros w1 st1 qq o1 v Hs1 Hq1 Ho1 Hv Hnv. rewrite not_elem_of_app in Hnv. destruct Hnv as [Hnv Hnu].
      assert (v ≠ u) as Hvu by (intros ->; apply Hnu; left).
      assert (∃ st2, ss !! w1 = Some st2 ∧ o1 ∈ (f_task <$> st2)) as (st2 & Hs2 & Ho2).
      { apply list_lookup_insert_Some in Hs1 as [(<- & <- & _)|[Hne H1]]; [|eauto].
        cbn in Ho1. apply elem_of_cons in Ho1 as [->|Ho1]; [|eauto].
        exfalso. by destruct (i_order _ _ If _ _ Hv) as [? _]. }
      apply list_lookup_insert_Some in Hq1 as [(<- & <- & _)|[Hne H1]]; [|by eapply Iq].
      pose proof (Iq j st2 _ o1 v Hs2 Hq Ho2 Hv Hnv) as Hin. rewrite elem_of_app, elem_of_cons in Hin. rewrite elem_of_app. naive_solver.
  - rewrite app_nil_r in *. constructor; cbn; [done|by rewrite !insert_length| |].
    + intros w1 st1 [(<- & <- & _)|[_ H1]]%list_lookup_insert_Some; [by apply (Is w _ Hs)|by apply (Is w1)].
    + intros w1 st1 qq o1 v Hs1 Hq1 Ho1 Hv Hnv.
      apply list_lookup_insert_Some in Hs1 as [(<- & <- & _)|[Hne H1]]; [|by eapply Iq].
      eapply (Iq w _ qq o1 v Hs); done.
  - rewrite app_nil_r in *. constructor; cbn; [done|by rewrite !insert_length| |].
    + intros w1 st1 [(<- & <- & _)|[_ H1]]%list_lookup_insert_Some; [|by apply (Is w1)].
      eapply stack_ok_tail, (Is w _ Hs).
    + intros w1 st1 qq o1 v Hs1 Hq1 Ho1 Hv Hnv.
      apply list_lookup_insert_Some in Hs1 as [(<- & <- & _)|[Hne H1]]; [|by eapply Iq].
      eapply (Iq w _ qq o1 v Hs); try done. cbn. by right.
Qed.

Lemma pinv_start n main : fork_join [] main → pinv [] (core_of (pool_start n main)).
Proof.
  intros Hfj. constructor.
  - rewrite flat_start. constructor; cbn; try done.
    + apply ginv_start.
    + intros o p [= -> ->]%elem_of_list_singleton. exists []. split; [done|]. by intros u ?%elem_of_nil.
    + by intros v t [?%elem_of_list_singleton|?%elem_of_list_singleton].
    + intros pc [= ->]%elem_of_list_singleton. eauto.
  - rewrite core_start. cbn. by rewrite !replicate_length.
  - rewrite core_start. cbn. intros w st Hst i j a b Hij Ha Hb. exfalso. destruct w as [|w]; cbn in Hst.
    + injection Hst as <-. cbn in Hb. destruct j as [|j]; [lia|done].
    + apply lookup_replicate in Hst as [-> _]. done.
  - by intros ? ? ? ? ? _ _ _ ?.
Qed.
Lemma reach_pinv n main s : fork_join [] main → pool_reach n main s → ∃ ow, pinv ow (core_of s).
Proof.
  intros Hfj. induction 1 as [|s w v s' _ [ow IH] Hst].
  - exists []. by apply pinv_start.
  - apply pool_step_core in Hst as [->|[l Hc]]; [by exists ow|]. exists (ow ++ option_list l). by eapply pinv_step.
Qed.

(** The weight of a counter is at most the number of tasks. *)
Lemma cnt_le_length {A} (f : A → nat) l : (∀ x, f x ≤ 1) → cnt f l ≤ length l.
Proof. intros Hf. induction l as [|x l IH]; cbn; [lia|]. specialize (Hf x). lia. Qed.

Lemma wf_le ts t fr : wf ts t fr ≤ 1.
Proof. unfold wf, wq. destruct (f_task fr); [|lia]. destruct (f_pc fr); case_decide; lia. Qed.
Lemma wq_le ts t v : wq ts t v ≤ 1.
Proof. unfold wq. case_decide; lia. Qed.
Lemma cnt_frames ts t f : cnt (wf ts t) f ≤ length (omap f_task f).
Proof.
  induction f as [|[o pc] f IH]; cbn; [lia|]. destruct o as [v|]; cbn.
  - pose proof (wf_le ts t (Frame (Some v) pc)). cbn in *. lia.
  - exact IH.
Qed.
Lemma omap_task_nodup f : NoDup (f_task <$> f) → NoDup (omap f_task f).
Proof.
  induction f as [|[o pc] f IH]; cbn; [constructor|]. intros [Hn Hnd]%NoDup_cons. destruct o as [v|]; [|by apply IH].
  constructor; [|by apply IH]. intros Hv. apply Hn. apply elem_of_list_omap in Hv as (fr & Hfr & Hv).
  apply elem_of_list_fmap. by exists fr.
Qed.
Lemma weight_le x t : ginv x →
  cnt (wq (fl_tasks x) t) (fl_q x) + cnt (wf (fl_tasks x) t) (fl_f x) ≤ length (fl_tasks x).
Proof.
  intros G. pose proof (cnt_le_length (wq (fl_tasks x) t) (fl_q x) (wq_le _ _)).
  pose proof (cnt_frames (fl_tasks x) t (fl_f x)).
  assert (length (omap f_task (fl_f x)) ≤ length (fl_started x)).
  { apply submseteq_length, NoDup_submseteq; [apply omap_task_nodup, G|]. intros v Hv. apply (g_started _ G).
    apply elem_of_list_omap in Hv as (fr & Hfr & Hv). apply elem_of_list_fmap. by exists fr. }
  assert (length (fl_started x ++ fl_q x) = length (fl_tasks x)) as Hl.
  { rewrite (g_perm _ G). apply seq_length. }
  rewrite app_length in Hl. lia.
Qed.

(** A counter of 0 means that nothing is left to do for the task and its children. *)
Lemma zero_done ow x t y : finv ow x → (N.of_nat (length (fl_tasks x)) < ctr_mod)%N →
  fl_tasks x !! t = Some y → t_parent y = None → t_ctr y = 0%N →
  ∀ v z, fl_tasks x !! v = Some z → v = t ∨ t_parent z = Some t → t_done z = true.
Proof.
  intros I Hlen Hy Hyp Hy0 v z Hz Hvt. pose proof (i_g _ _ I) as G. pose proof (weight_le x t G) as Hw.
  rewrite (i_root _ _ I t y Hy Hyp), N.mod_small in Hy0 by lia.
  assert (wq (fl_tasks x) t v = 1) as Hq1.
  { unfold wq. rewrite decide_True; [done|]. destruct Hvt as [->|Hp]; [by left|right]. by eapply parent_of_Some. }
  destruct (t_done z) eqn:Hd; [done|]. exfalso. destruct (g_done _ G v z Hz Hd) as [Hin|[p Hin]].
  - pose proof (cnt_elem (wq (fl_tasks x) t) _ _ Hin). lia.
  - pose proof (cnt_elem (wf (fl_tasks x) t) _ _ Hin) as H. change (wf _ t (Frame (Some v) (FRun p))) with (wq (fl_tasks x) t v) in H. lia.
Qed.

(** * Going on *)

Lemma submit_not_self p : ∀ c o k n, k n = p → p ≠ PSubmit c o k.
Proof.
  induction p as [|c' _ o' k' IH|t k IH|k IH|a k IH]; intros c o k1 n Hk E; try done.
  injection E as _ _ ->. eapply (IH n c' o' k1 n eq_refl). congruence.
Qed.
Lemma wait_not_self t k : k ≠ PWait t k.
Proof. induction k as [| |t' k IH| |]; try done. intros E. injection E as -> E. by rewrite <-E in IH. Qed.
Lemma stop_not_self k : k ≠ PStop k.
Proof. induction k as [| | |k IH|]; try done. intros E. injection E as E. by rewrite <-E in IH. Qed.
Lemma act_not_self a k : k ≠ PAct a k.
Proof. induction k as [| | | |a' k IH]; try done. intros E. injection E as -> E. by rewrite <-E in IH. Qed.

(** Every step other than an unsuccessful get_task changes a call stack. *)
Lemma insert_changes {A} (l : list A) (i : nat) x y : l !! i = Some x → x ≠ y → <[i := y]> l ≠ l.
Proof.
  intros Hx Hne E. assert (<[i := y]> l !! i = Some y) as Hy by (apply list_lookup_insert; by eapply lookup_lt_Some).
  rewrite E in Hy. congruence.
Qed.
Lemma cons_not_self {A} (x : A) l : l ≠ x :: l.
Proof. intros E. apply (f_equal length) in E. cbn in E. lia. Qed.
Lemma cstep_changes l c w c' : cstep l c w c' → c_ss c' ≠ c_ss c.
Proof.
  intros [ts ps sd qs ss w0 o cc p k st q Hs Hq|ts ps sd qs ss w0 st j q1 u q2 cc Hs Hq Hc
         |ts ps sd qs ss w0 o pc st ts' pc' Hs Hg|ts ps sd qs ss w0 fr st Hs Hg]; cbn; (eapply insert_changes; [exact Hs|]).
  - intros [= E]. exact (submit_not_self _ _ _ _ _ eq_refl (eq_sym E)).
  - apply cons_not_self.
  - intros [= E]. destruct Hg; try done.
    + injection E as E. exact (wait_not_self _ _ (eq_sym E)).
    + injection E as E. exact (stop_not_self _ (eq_sym E)).
    + injection E as E. exact (act_not_self _ _ (eq_sym E)).
  - intros E. by eapply cons_not_self.
Qed.

(** The call started last. *)
Lemma latest (F : list (option nat)) sd :
  (∃ l1 v l2, sd = l1 ++ v :: l2 ∧ Some v ∈ F ∧ ∀ u, u ∈ l2 → Some u ∉ F) ∨ (∀ u, u ∈ sd → Some u ∉ F).
Proof.
  induction sd as [|v sd IH]; [right; by intros u ?%elem_of_nil|]. destruct IH as [(l1 & u & l2 & -> & Hu & Hl)|IH].
  - left. by exists (v :: l1), u, l2.
  - destruct (decide (Some v ∈ F)) as [Hv|Hv].
    + left. by exists [], v, sd.
    + right. by intros u [->|Hu]%elem_of_cons; [|apply IH].
Qed.
Lemma before_later (sd l1 l2 : list nat) a b : NoDup sd → sd = l1 ++ a :: l2 → before sd a b → b ∈ l2.
Proof.
  intros Hnd Hsd (k1 & k2 & E & Ha). subst sd. 
  assert (∃ m, k1 = l1 ++ a :: m) as [m ->].
  { apply elem_of_list_split in Ha as (m1 & m2 & ->). exists m2. f_equal.
    rewrite E in Hnd. rewrite <-app_assoc in E, Hnd. cbn in E, Hnd.
    assert (l1 = m1) as ->; [|done]. clear -E Hnd. revert l1 E. induction m1 as [|z m1 IH]; intros [|y l1] E; cbn in *; [done| | |].
    - injection E as -> E. apply NoDup_cons in Hnd as [Hn _]. exfalso. apply Hn. rewrite <-E. apply elem_of_app. right. left.
    - injection E as <- E. apply NoDup_cons in Hnd as [Hn _]. exfalso. apply Hn. apply elem_of_app. right. left.
    - injection E as <- E. f_equal. apply IH; [|done]. by apply NoDup_cons in Hnd as [_ ?]. }
  rewrite <-app_assoc in E. cbn in E. apply app_inv_head in E. injection E as ->. apply elem_of_app. right. left.
Qed.

(** The call started last (the main program if there is no other) is the innermost one of its stack. *)
Lemma latest_top ow c : pinv ow c → concat (c_ss c) ≠ [] →
  ∃ (w : nat) o pc st, c_ss c !! w = Some (Frame o pc :: st) ∧
    ∀ u, Some u ∈ (f_task <$> concat (c_ss c)) → match o with Some v => ¬ before (c_started c) v u | None => False end.
Proof.
  intros I Hne. pose proof (i_g _ _ (p_f _ _ I)) as G. pose proof (ginv_nd _ G) as (Hnd & _ & _)%NoDup_app. cbn in Hnd.
  set (F := f_task <$> concat (c_ss c)).
  assert (∀ w st fr, c_ss c !! w = Some st → fr ∈ st → f_task fr ∈ F) as HF.
  { intros w st fr Hw Hfr. apply elem_of_list_fmap. exists fr. split; [done|]. apply elem_of_concat. by exists w, st. }
  assert (∀ o, o ∈ F → (∀ u, Some u ∈ F → match o with Some v => ¬ before (c_started c) v u | None => False end) →
    ∃ (w : nat) pc st, c_ss c !! w = Some (Frame o pc :: st)) as Htop.
  { intros o Ho Hlast. apply elem_of_list_fmap in Ho as (fr & -> & Hfr). apply elem_of_concat in Hfr as (w & st & Hst & Hfr).
    apply elem_of_list_lookup in Hfr as [[|j] Hj].
    - destruct st as [|[o pc] st]; [done|]. injection Hj as <-. by exists w, pc, st.
    - exfalso. destruct st as [|fr0 st]; [done|].
      destruct (p_stack _ _ I w _ Hst 0 (S j) (f_task fr0) (f_task fr)) as (va & Hva & Hb).
      { lia. } { done. } { by rewrite list_lookup_fmap, Hj. }
      pose proof (Hlast va) as Hl. rewrite <-Hva in Hl. specialize (Hl (HF w _ fr0 Hst (elem_of_list_here _ _))).
      destruct (f_task fr) as [v|]; [|done]. by apply Hl, Hb. }
  destruct (latest F (c_started c)) as [(l1 & v & l2 & Hsd & Hv & Hl)|Hl].
  - assert (∀ u, Some u ∈ F → ¬ before (c_started c) v u) as Hlast.
    { intros u Hu Hb. eapply Hl; [|exact Hu]. by eapply before_later. }
    destruct (Htop (Some v) Hv Hlast) as (w & pc & st & Hw). by exists w, (Some v), pc, st.
  - assert (∀ u, Some u ∉ F) as Hno. { intros u Hu. eapply Hl; [|exact Hu]. by apply (g_started _ G). }
    assert (None ∈ F) as Hn.
    { destruct (concat (c_ss c)) as [|[o pc] r] eqn:E; [done|]. destruct o as [v|]; [|left]. exfalso. apply (Hno v). left. }
    destruct (Htop None Hn (λ u Hu, Hno u Hu)) as (w & pc & st & Hw). by exists w, None, pc, st.
Qed.

Lemma last_nonempty {A} (l : list A) x : x ∈ l → ∃ y, last l = Some y ∧ y ∈ l.
Proof.
  destruct l as [|z l _] using rev_ind; [by intros ?%elem_of_nil|]. intros _. exists z. rewrite last_snoc. split; [done|].
  apply elem_of_app. right. left.
Qed.

(** Whenever a call of a fork-join program has not returned, there is a worker whose next step changes a call stack, whatever
    victim it chooses; the worker depends on the tasks, queues and stacks only. *)
Lemma must_go_on ow c : pinv ow c → concat (c_ss c) ≠ [] →
  ∃ w, w < length (c_ss c) ∧ ∀ s, core_of s = c → ∀ v, ∃ s', pool_step s w v = Some s' ∧ w_stack <$> p_workers s' ≠ w_stack <$> p_workers s.
Proof.
  intros I Hne. destruct (latest_top ow _ I Hne) as (w & o & pc & st & Hw & Hlast). exists w. split; [by eapply lookup_lt_Some|]. intros s <- vi.
  pose proof (p_f _ _ I) as If. pose proof (i_g _ _ If) as G. cbn in Hw, Hlast.
  assert (∃ s', pool_step s w vi = Some s' ∧ core_of s' ≠ core_of s) as (s' & Hs' & Hne').
  2: { exists s'. split; [done|]. apply pool_step_core in Hs' as [?|[l Hc]]; [done|]. by apply cstep_changes in Hc. }
  rewrite list_lookup_fmap in Hw. apply fmap_Some in Hw as (x & Hx & Hst).
  assert (Frame o pc ∈ fl_f (flat_of (core_of s))) as Hfr.
  { apply elem_of_concat. exists w, (w_stack x). cbn. rewrite list_lookup_fmap, Hx. split; [done|]. rewrite <-Hst. left. }
  unfold pool_step. rewrite Hx. cbn. rewrite <-Hst. unfold frame_step. cbn.
  assert (∀ f s1, p_workers s1 !! w = Some (f x) → w_stack (f x) ≠ w_stack x → core_of s1 ≠ core_of s) as Hdiff.
  { intros f s1 H1 H2 E. apply (f_equal (λ c, c_ss c !! w)) in E. cbn in E. rewrite !list_lookup_fmap, H1, Hx in E. cbn in E. congruence. }
  assert (∀ pc' ts', pc' ≠ pc → core_of (upd_worker (set_stack (Frame o pc' :: st)) w (p_set_tasks s ts')) ≠ core_of s) as Hgo.
  { intros pc' ts' H1. apply (Hdiff (set_stack (Frame o pc' :: st))); [by cbn; rewrite list_lookup_alter, Hx|]. cbn. rewrite <-Hst. congruence. }
  assert (core_of (upd_worker (set_stack st) w s) ≠ core_of s) as Hpop.
  { apply (Hdiff (set_stack st)); [by cbn; rewrite list_lookup_alter, Hx|]. cbn. rewrite <-Hst. apply cons_not_self. }
  assert (p_set_tasks s (p_tasks s) = s) as Hid by (by destruct s).
  destruct pc as [[|c p k|t k|k|a k]|t|t].
  - destruct o as [v|].
    + eexists. split; [done|]. by apply Hgo.
    + eexists. split; [done|]. done.
  - eexists. split; [done|]. eapply (Hdiff (λ x, set_stack (Frame o (FRun (k (length (p_tasks s)))) :: st) (set_queue _ x))).
    + cbn. by rewrite list_lookup_alter, list_lookup_alter, Hx.
    + cbn. rewrite <-Hst. intros [= E]. exact (submit_not_self _ _ _ _ _ eq_refl E).
  - destruct (i_run _ _ If o _ Hfr) as (own & [Ht Hfj] & Hown). destruct (Hown t Ht) as [Hto Htp].
    assert (t < length (p_tasks s)) as Hlt. { pose proof (i_ow _ _ If) as Hl. cbn in Hl. rewrite <-Hl. by eapply lookup_lt_Some. }
    destruct (lookup_lt_is_Some_2 _ _ Hlt) as [y Hy]. rewrite Hy. cbn.
    assert (t_parent y = None) as Hyp. { unfold parent_of in Htp. cbn in Htp. by rewrite Hy in Htp. }
    case_bool_decide as Hc.
    { eexists. split; [done|]. rewrite <-Hid at 1. apply Hgo. intros [= E]. exact (wait_not_self _ _ E). }
    assert (∃ u, u ∈ w_queue x) as [u Hu].
    { rewrite (i_root _ _ If t y Hy Hyp) in Hc. cbn in Hc.
      destruct (cnt (wq (p_tasks s) t) (concat (w_queue <$> p_workers s))) eqn:Eq;
      [destruct (cnt (wf (p_tasks s) t) (concat (w_stack <$> p_workers s))) eqn:Ef; [done|]|].
      - exfalso. destruct (cnt_pos (wf (p_tasks s) t) (concat (w_stack <$> p_workers s))) as ([ov pcv] & Hin & Hp); [lia|].
        assert (∃ v, ov = Some v ∧ (v = t ∨ parent_of (p_tasks s) v = Some t)) as (v & -> & Hv).
        { unfold wf in Hp. cbn in Hp. destruct ov as [v|]; [|lia]. exists v. split; [done|]. unfold wq in Hp.
          destruct pcv as [?|z|z]; (case_decide as E; [|lia]); [done| |naive_solver]. destruct E as [->|[_ E]]; [|by right].
          destruct (i_pc _ _ If v t) as [->|?]; [by left|by left|by right]. }
        assert (ow !! v = Some o) as Hov.
        { destruct Hv as [->|Hv]; [done|]. destruct (i_parent _ _ If v t Hv) as (_ & -> & _). done. }
        assert (Some v ∈ (f_task <$> concat (w_stack <$> p_workers s))) as HvF.
        { apply elem_of_list_fmap. by exists (Frame (Some v) pcv). }
        pose proof (Hlast v HvF) as Hl. destruct o as [o|]; [|done]. apply Hl.
        apply (i_order _ _ If v o Hov). by apply (g_started _ G).
      - destruct (cnt_pos (wq (p_tasks s) t) (concat (w_queue <$> p_workers s))) as (v & Hin & Hp); [lia|].
        exists v. unfold wq in Hp. case_decide as Hv; [|lia].
        apply (p_queue _ _ I w (w_stack x) (w_queue x) o v).
        + cbn. by rewrite list_lookup_fmap, Hx.
        + cbn. by rewrite list_lookup_fmap, Hx.
        + rewrite <-Hst. left.
        + destruct Hv as [->|Hv]; [done|]. destruct (i_parent _ _ If v t Hv) as (_ & -> & _). done.
        + intros Hs. by apply (ginv_disj _ v G) in Hs. }
    apply last_nonempty in Hu as (u' & Hlst & Hu'). unfold get_task. rewrite Hx. cbn. rewrite Hlst. cbn. unfold wk_execute. cbn.
    destruct (lookup_lt_is_Some_2 (p_progs s) u') as [c Hpc].
    { pose proof (g_len _ G) as Hl. cbn in Hl. rewrite Hl. apply (ginv_q_lt _ u' G). cbn. apply elem_of_concat.
      exists w, (w_queue x). rewrite list_lookup_fmap, Hx. done. }
    rewrite Hpc. cbn. eexists. split; [done|].
    eapply (Hdiff (λ x, set_stack (Frame (Some u') (FRun c) :: w_stack x) (set_queue (pop_back (w_queue x)) x))).
    + cbn. by rewrite list_lookup_alter, list_lookup_alter, Hx.
    + cbn. intros E. by eapply cons_not_self.
  - eexists. split; [done|]. eapply (Hdiff (λ y, set_stack (Frame o (FRun k) :: st) (if decide (w = 0) then y else set_active false y))).
    + cbn. by rewrite list_lookup_alter, list_lookup_imap, Hx.
    + cbn. rewrite <-Hst. intros [= E]. by eapply stop_not_self.
  - eexists. split; [done|]. rewrite <-Hid at 1. apply Hgo. intros [= E]. by eapply act_not_self.
  - eexists. split; [done|]. by apply Hgo.
  - destruct o as [v|]; [|by destruct (i_main _ _ If _ Hfr)].
    assert (t < length (p_tasks s)) as Hlt.
    { destruct (i_pc _ _ If v t (or_intror Hfr)) as [->|Hv].
      - by apply (ginv_f_lt _ v _ G) in Hfr as [? _].
      - by destruct (i_parent _ _ If v t Hv) as [? _]. }
    destruct (lookup_lt_is_Some_2 _ _ Hlt) as [y Hy]. rewrite Hy. cbn.
    destruct (if bool_decide (t_ctr y = 0%N) then t_parent y else None) as [p|].
    + eexists. split; [done|]. rewrite <-Hid at 1. by apply Hgo.
    + by eexists.
Qed.

Lemma can_go_on ow s : pinv ow (core_of s) → concat (w_stack <$> p_workers s) ≠ [] →
  ∃ w v s', pool_step s w v = Some s' ∧ w_stack <$> p_workers s' ≠ w_stack <$> p_workers s.
Proof.
  intros I Hne. destruct (must_go_on ow _ I Hne) as (w & _ & H). destruct (H s eq_refl None) as (s' & Hs). by exists w, None, s'.
Qed.

(** * No program makes calls forever *)

(** The multiset order: one element is replaced by any number of smaller ones. *)
Section Multiset.
  Context {A : Type} (R : A → A → Prop).
  Definition mlt (l' l : list A) : Prop :=
    ∃ a r new, l ≡ₚ a :: r ∧ l' ≡ₚ new ++ r ∧ ∀ b, b ∈ new → R b a.

  Lemma mlt_acc_perm l l' : l ≡ₚ l' → Acc mlt l → Acc mlt l'.
  Proof.
    intros Hp [H]. constructor. intros x (a & r & new & Ha & Hx & Hn). apply H. exists a, r, new.
    split; [by rewrite Hp|done].
  Qed.
  Lemma mlt_cons a l : (∀ b, R b a → ∀ l, Acc mlt l → Acc mlt (b :: l)) → Acc mlt l → Acc mlt (a :: l).
  Proof.
    intros Ha Hl. induction Hl as [l Hl IH]. constructor. intros x (a' & r & new & Har & Hx & Hn).
    pose proof (Permutation_vs_cons_inv Har) as (l1 & l2 & E). rewrite E in Har.
    rewrite <-Permutation_middle in Har. apply (inj (cons a')) in Har.
    destruct l1 as [|z l1]; cbn in E, Har; injection E as <- ->.
    - apply (mlt_acc_perm (new ++ l2)); [by rewrite Hx, Har|]. clear Hx IH.
      induction new as [|b new IHn]; cbn; [by constructor|].
      apply Ha; [apply Hn; left|]. apply IHn. intros c Hc. apply Hn. by right.
    - apply (mlt_acc_perm (a :: (new ++ (l1 ++ l2)))).
      { rewrite Hx, <-Har. solve_Permutation. }
      apply IH. exists a', (l1 ++ l2), new. split; [by rewrite Permutation_middle|done].
  Qed.
  Lemma mlt_wf : (∀ a, Acc R a) → ∀ l, Acc mlt l.
  Proof.
    intros HR l. induction l as [|a l IH].
    - constructor. intros x (a & r & new & H & _). by apply Permutation_nil_cons in H.
    - revert l IH. induction (HR a) as [a _ IHa]. intros l Hl. by apply mlt_cons.
  Qed.
End Multiset.

(** Lexicographic rank of what is left to do, piece by piece. *)
Inductive item := IQueued (p : prog) | IRun (p : prog) | IFin (n : nat).
Inductive item_lt : item → item → Prop :=
  | lt_start p : item_lt (IRun p) (IQueued p)
  | lt_submit c o k n : item_lt (IRun (k n)) (IRun (PSubmit c o k))
  | lt_child c o k : item_lt (IQueued c) (IRun (PSubmit c o k))
  | lt_wait t k : item_lt (IRun k) (IRun (PWait t k))
  | lt_stop k : item_lt (IRun k) (IRun (PStop k))
  | lt_act a k : item_lt (IRun k) (IRun (PAct a k))
  | lt_done p n : item_lt (IFin n) (IRun p)
  | lt_fin m n : m < n → item_lt (IFin m) (IFin n).
Lemma item_acc i : Acc item_lt i.
Proof.
  assert (∀ n, Acc item_lt (IFin n)) as HF.
  { intros n. induction (lt_wf n) as [n _ IH]. constructor. intros j Hj. inversion Hj; subst. by apply IH. }
  assert (∀ p, Acc item_lt (IRun p)) as HR.
  { intros p. induction p as [|c IHc o k IHk|t k IHk|k IHk|a k IHk]; constructor; intros j Hj; inversion Hj; subst; clear Hj.
    - apply HF.
    - apply IHk.
    - constructor. intros j Hj. inversion Hj; subst. exact IHc.
    - apply HF.
    - exact IHk.
    - apply HF.
    - exact IHk.
    - apply HF.
    - exact IHk.
    - apply HF. }
  destruct i; [|apply HR|apply HF]. constructor. intros j Hj. inversion Hj; subst. apply HR.
Qed.

Definition item_of (fr : frame) : item :=
  match f_pc fr with FRun p => IRun p | FSub t => IFin (2 * t + 1) | FCheck t => IFin (2 * t) end.
Definition queue_item (ps : list prog) (v : nat) : option item := IQueued <$> ps !! v.
Definition items (x : flat) : list item := omap (queue_item (fl_progs x)) (fl_q x) ++ (item_of <$> fl_f x).

(** A program that refers only to tasks it has been given: tasks submitted before it, or submitted by it. *)
Fixpoint scoped (n : nat) (p : prog) : Prop :=
  match p with
  | PDone => True
  | PSubmit c o k => (∀ q, o = Some q → q < n) ∧ scoped n c ∧ ∀ m, n ≤ m → scoped (S m) (k m)
  | PWait t k => t < n ∧ scoped n k
  | PStop k => scoped n k
  | PAct _ k => scoped n k
  end.
Lemma scoped_mono p : ∀ n n', n ≤ n' → scoped n p → scoped n' p.
Proof.
  induction p as [|c IHc o k IHk|t k IHk|k IHk|a k IHk]; cbn; intros n n' Hn; [done| | | |].
  - intros (Ho & Hc & Hk). split; [intros q Hq; specialize (Ho q Hq); lia|]. split; [by eapply IHc|].
    intros m Hm. apply Hk. lia.
  - intros [Ht Hk]. split; [lia|by eapply IHk].
  - by apply IHk.
  - by apply IHk.
Qed.
Lemma fork_join_scoped p : ∀ own n, (∀ u, u ∈ own → u < n) → fork_join own p → scoped n p.
Proof.
  induction p as [|c IHc o k IHk|t k IHk|k IHk|a k IHk]; cbn; intros own n Ho; [done| | | |].
  - destruct o as [q|].
    + intros (Hq & Hc & Hk). split; [intros ? [= <-]; by apply Ho|].
      split; [by apply (IHc [] n); [intros u ?%elem_of_nil|]|].
      intros m Hm. apply (IHk m own); [|done]. intros u Hu. specialize (Ho u Hu). lia.
    + intros (Hc & Hk). split; [done|].
      split; [by apply (IHc [] n); [intros u ?%elem_of_nil|]|].
      intros m Hm. apply (IHk m (m :: own)); [|done]. intros u [->|Hu]%elem_of_cons; [lia|]. specialize (Ho u Hu). lia.
  - intros [Ht Hk]. split; [by apply Ho|by eapply IHk].
  - intros Hk. by eapply IHk.
  - intros Hk. by eapply IHk.
Qed.

Record sinv (x : flat) : Prop := {
  s_g : ginv x;
  s_run : ∀ o p, Frame o (FRun p) ∈ fl_f x → scoped (length (fl_tasks x)) p;
  s_progs : Forall (scoped (length (fl_tasks x))) (fl_progs x);
  s_parent : ∀ v p, parent_of (fl_tasks x) v = Some p → p < v }.

Lemma sinv_step l x y : fstep l x y → sinv x → sinv y ∧ mlt item_lt (items y) (items x).
Proof.
  intros Hs [G S1 S2 S3]. pose proof (ginv_step l x y Hs G) as G'.
  assert (∀ ps q f f0 f' o pc pc', f ≡ₚ Frame o pc :: f0 → f' ≡ₚ Frame o pc' :: f0 →
    item_lt (item_of (Frame o pc')) (item_of (Frame o pc)) →
    mlt item_lt (omap (queue_item ps) q ++ (item_of <$> f')) (omap (queue_item ps) q ++ (item_of <$> f))) as Hmgo.
  { intros ps q f f0 f' o pc pc' Hf Hf' Hlt.
    exists (item_of (Frame o pc)), (omap (queue_item ps) q ++ (item_of <$> f0)), [item_of (Frame o pc')].
    split; [|split].
    - rewrite Hf. cbn [fmap list_fmap]. solve_Permutation.
    - rewrite Hf'. cbn [fmap list_fmap]. solve_Permutation.
    - by intros b ->%elem_of_list_singleton. }
  assert (∀ ps q f f' fr, f ≡ₚ fr :: f' →
    mlt item_lt (omap (queue_item ps) q ++ (item_of <$> f')) (omap (queue_item ps) q ++ (item_of <$> f))) as Hmpop.
  { intros ps q f f' fr Hf.
    exists (item_of fr), (omap (queue_item ps) q ++ (item_of <$> f')), [].
    split; [|split].
    - rewrite Hf. cbn [fmap list_fmap]. solve_Permutation.
    - done.
    - by intros b ?%elem_of_nil. }
  destruct Hs as
    [ts ps st q f o c p k f0 q' f' Hf Hq' Hf'|ts ps st q f v c q' f' Hq Hc Hf'|ts ps st q f v f0 f' Hf Hf'
    |ts ps st q f f' Hf|ts ps st q f o t k f0 f' x Hf Hf' Hx Hx0|ts ps st q f o k f0 f' Hf Hf'|ts ps st q f o a k f0 f' Hf Hf'
    |ts ps st q f o t f0 f' Hf Hf'|ts ps st q f o t f0 f' x p Hf Hf' Hx Hx0 Hp|ts ps st q f o t f' x Hf Hx _]; cbn in *.
  - destruct (S1 o (PSubmit c p k)) as (Hp & Hc & Hk); [rewrite Hf; left|]. split.
    + constructor; cbn; [done| | |].
      * rewrite app_length, count_in_length. cbn. rewrite Nat.add_1_r. intros o1 p1. rewrite Hf'.
        intros [[= -> ->]|H]%elem_of_cons; [by apply Hk|].
        eapply scoped_mono; [|apply (S1 o1 p1); rewrite Hf; by right]. lia.
      * rewrite app_length, count_in_length. cbn. apply Forall_app. split.
        -- eapply Forall_impl; [exact S2|]. intros p1. apply scoped_mono. lia.
        -- constructor; [|done]. eapply scoped_mono; [|exact Hc]. lia.
      * intros v p1 Hv. destruct (decide (v < length ts)) as [Hlt|Hge].
        -- rewrite parent_of_old in Hv by done. by apply S3.
        -- pose proof (parent_of_lt _ _ _ Hv) as Hlt. rewrite app_length, count_in_length in Hlt. cbn in Hlt.
           assert (v = length ts) as -> by lia. rewrite parent_of_new in Hv. cbn in Hv. by apply Hp.
    + exists (IRun (PSubmit c p k)), (omap (queue_item ps) q ++ (item_of <$> f0)), [IQueued c; IRun (k (length ts))].
      unfold items. cbn. split; [|split].
      * rewrite Hf. cbn. solve_Permutation.
      * assert (omap (queue_item (ps ++ [c])) q = omap (queue_item ps) q) as Hold.
        { apply list_omap_ext, Forall_Forall2_diag, Forall_forall. intros v Hv. unfold queue_item.
          rewrite lookup_app_l; [done|]. pose proof (g_len _ G) as Hl. cbn in Hl. rewrite Hl. by apply (ginv_q_lt _ v G). }
        rewrite Hf', Hq'. cbn. rewrite Hold. pose proof (g_len _ G) as Hl. cbn in Hl.
        replace (queue_item (ps ++ [c]) (length ts)) with (Some (IQueued c)).
        2: { unfold queue_item. by rewrite lookup_app_r, Hl, Nat.sub_diag by lia. }
        cbn. solve_Permutation.
      * intros b [->|[->|[]%elem_of_nil]%elem_of_cons]%elem_of_cons; constructor.
  - split.
    + constructor; cbn; [done| |done|done].
      intros o1 p1. rewrite Hf'. intros [[= -> ->]|H]%elem_of_cons; [|by apply (S1 o1)].
      rewrite Forall_lookup in S2. by eapply S2.
    + exists (IQueued c), (omap (queue_item ps) q' ++ (item_of <$> f)), [IRun c]. unfold items. cbn. split; [|split].
      * rewrite Hq. cbn. replace (queue_item ps v) with (Some (IQueued c)); [done|]. unfold queue_item. by rewrite Hc.
      * rewrite Hf'. cbn. solve_Permutation.
      * intros b ->%elem_of_list_singleton. constructor.
  - split.
    + constructor; cbn; [done| | |].
      * rewrite alter_length. intros o1 p1. rewrite Hf'. intros [?|H]%elem_of_cons; [done|]. apply (S1 o1). rewrite Hf. by right.
      * by rewrite alter_length.
      * intros u p. rewrite parent_of_alter by done. apply S3.
    + eapply Hmgo; [exact Hf|exact Hf'|constructor].
  - split.
    + constructor; cbn; [done| |done|done]. intros o1 p1 H. apply (S1 o1). rewrite Hf. by right.
    + by eapply Hmpop.
  - split.
    + constructor; cbn; [done| |done|done].
      intros o1 p1. rewrite Hf'. intros [[= -> ->]|H]%elem_of_cons; [|apply (S1 o1); rewrite Hf; by right].
      apply (S1 o (PWait t k)). rewrite Hf. left.
    + eapply Hmgo; [exact Hf|exact Hf'|constructor].
  - split.
    + constructor; cbn; [done| |done|done].
      intros o1 p1. rewrite Hf'. intros [[= -> ->]|H]%elem_of_cons; [|apply (S1 o1); rewrite Hf; by right].
      apply (S1 o (PStop k)). rewrite Hf. left.
    + eapply Hmgo; [exact Hf|exact Hf'|constructor].
  - split.
    + constructor; cbn; [done| |done|done].
      intros o1 p1. rewrite Hf'. intros [[= -> ->]|H]%elem_of_cons; [|apply (S1 o1); rewrite Hf; by right].
      apply (S1 o (PAct a k)). rewrite Hf. left.
    + eapply Hmgo; [exact Hf|exact Hf'|constructor].
  - split.
    + constructor; cbn; [done| | |].
      * rewrite alter_length. intros o1 p1. rewrite Hf'. intros [?|H]%elem_of_cons; [done|]. apply (S1 o1). rewrite Hf. by right.
      * by rewrite alter_length.
      * intros u p. rewrite parent_of_alter by done. apply S3.
    + eapply Hmgo; [exact Hf|exact Hf'|]. cbn. constructor. lia.
  - split.
    + constructor; cbn; [done| |done|done].
      intros o1 p1. rewrite Hf'. intros [?|H]%elem_of_cons; [done|]. apply (S1 o1). rewrite Hf. by right.
    + eapply Hmgo; [exact Hf|exact Hf'|]. cbn. constructor.
      assert (p < t) by (apply S3; by eapply parent_of_Some). lia.
  - split.
    + constructor; cbn; [done| |done|done]. intros o1 p1 H. apply (S1 o1). rewrite Hf. by right.
    + by eapply Hmpop.
Qed.

Lemma sinv_start n main : scoped 0 main → sinv (flat_of (core_of (pool_start n main))).
Proof.
  intros Hsc. rewrite flat_start. constructor; cbn; [apply ginv_start| |done|done].
  by intros o p [= -> ->]%elem_of_list_singleton.
Qed.
Lemma step_items s w v s' : pool_step s w v = Some s' → sinv (flat_of (core_of s)) →
  sinv (flat_of (core_of s')) ∧
  (core_of s' = core_of s ∨ mlt item_lt (items (flat_of (core_of s'))) (items (flat_of (core_of s)))).
Proof.
  intros Hst Hs. apply pool_step_core in Hst as [->|[l Hc]]; [by split; [|left]|].
  apply cstep_flat in Hc. destruct (sinv_step l _ _ Hc Hs) as [? ?]. by split; [|right].
Qed.
Lemma reach_sinv n main s : scoped 0 main → pool_reach n main s → sinv (flat_of (core_of s)).
Proof.
  intros Hsc. induction 1 as [|s w v s' _ IH Hst]; [by apply sinv_start|]. by apply (step_items s w v s').
Qed.

(** Executions. *)
Definition psteps : tpool → tpool → Prop := rtc (λ s s', ∃ w v, pool_step s w v = Some s').

Lemma psteps_items s s' : psteps s s' → sinv (flat_of (core_of s)) →
  sinv (flat_of (core_of s')) ∧
  (core_of s' = core_of s ∨ tc (λ l l', mlt item_lt l' l) (items (flat_of (core_of s))) (items (flat_of (core_of s')))).
Proof.
  induction 1 as [s|s s1 s' (w & v & Hst) _ IH]; intros Hs; [by split; [|left]|].
  destruct (step_items s w v s1 Hst Hs) as [Hs1 H1]. destruct (IH Hs1) as [Hs2 H2]. split; [done|].
  destruct H1 as [E1|H1]; [by rewrite <-E1|]. right. destruct H2 as [->|H2]; [by apply tc_once|]. by eapply tc_l.
Qed.

(** In no execution of a program do the call stacks change infinitely often. *)
Lemma no_calls_forever (f : nat → tpool) : sinv (flat_of (core_of (f 0))) →
  (∀ i, ∃ w v, pool_step (f i) w v = Some (f (S i))) →
  ¬ ∀ i, ∃ j, i ≤ j ∧ (w_stack <$> p_workers (f (S j)) ≠ w_stack <$> p_workers (f j)).
Proof.
  intros Hs0 Hf Hinf.
  assert (∀ i j, i ≤ j → psteps (f i) (f j)) as Hps.
  { intros i j Hij. induction Hij as [|j _ IH]; [apply rtc_refl|]. eapply rtc_r; [exact IH|apply Hf]. }
  assert (∀ i, sinv (flat_of (core_of (f i)))) as Hs.
  { intros i. apply (psteps_items (f 0) (f i)); [|done]. apply Hps. lia. }
  assert (∀ l, Acc (λ a b, tc (λ l l', mlt item_lt l' l) b a) l → ∀ i, l = items (flat_of (core_of (f i))) → False) as H.
  { intros l Hl. induction Hl as [l _ IH]. intros i ->. destruct (Hinf i) as (j & Hij & Hne).
    destruct (Hf j) as (w & v & Hst). destruct (step_items _ _ _ _ Hst (Hs j)) as [_ [E|Hlt]].
    { apply (f_equal c_ss) in E. by cbn in E. }
    eapply (IH (items (flat_of (core_of (f (S j)))))); [|done].
    destruct (psteps_items _ _ (Hps i j Hij) (Hs i)) as [_ [E|Htc]].
    - rewrite <-E. by apply tc_once.
    - by eapply tc_r. }
  eapply (H (items (flat_of (core_of (f 0))))); [|done].
  assert (∀ l, Acc (mlt item_lt) l → Acc (λ a b, tc (λ l l', mlt item_lt l' l) b a) l) as Htc.
  { intros l Hl. induction Hl as [l _ IH]. constructor. intros l' Hl'. inversion Hl' as [? ? H1|? l1 ? H1 H2]; subst.
    - by apply IH.
    - specialize (IH _ H1). destruct IH as [IH]. by apply IH. }
  apply Htc, mlt_wf, item_acc.
Qed.

(** A fork-join program can always be finished: there is an execution after which every call has returned. *)
Lemma reach_psteps n main s s' : pool_reach n main s → psteps s s' → pool_reach n main s'.
Proof. intros Hr Hst. induction Hst as [|s s1 s' (w & v & H1) _ IH]; [done|]. apply IH. by econstructor. Qed.

Lemma can_finish n main s : fork_join [] main → pool_reach n main s →
  ∃ s', psteps s s' ∧ concat (w_stack <$> p_workers s') = [].
Proof.
  intros Hfj Hr. assert (scoped 0 main) as Hsc by (by eapply fork_join_scoped; [|exact Hfj]; intros u ?%elem_of_nil).
  remember (items (flat_of (core_of s))) as l eqn:El. revert s Hr El.
  induction (mlt_wf item_lt item_acc l) as [l _ IH]. intros s Hr ->.
  destruct (concat (w_stack <$> p_workers s)) as [|fr r] eqn:Ec; [exists s; split; [apply rtc_refl|done]|].
  destruct (reach_pinv n main s Hfj Hr) as [ow I].
  destruct (can_go_on ow s I) as (w & v & s1 & Hst & Hne); [by rewrite Ec|].
  destruct (step_items s w v s1 Hst (reach_sinv n main s Hsc Hr)) as [_ [E|Hlt]].
  { apply (f_equal c_ss) in E. by cbn in E. }
  destruct (IH _ Hlt s1) as (s' & Hs' & He); [by econstructor|done|].
  exists s'. split; [|done]. eapply rtc_l; [by exists w, v|exact Hs'].
Qed.

(** * Background workers that are not stopped *)

Fixpoint no_stop (p : prog) : Prop :=
  match p with
  | PDone => True
  | PSubmit c _ k => no_stop c ∧ ∀ n, no_stop (k n)
  | PWait _ k => no_stop k
  | PStop _ => False
  | PAct _ k => no_stop k
  end.
Definition wok (x : worker) : Prop := w_active x = true ∧ w_base x ≠ BExit.
Definition good (ws : list worker) : Prop := ∀ (w : nat) x, ws !! w = Some x → w ≠ 0 → wok x.
Record ninv (n : nat) (s : tpool) : Prop := {
  n_run : ∀ o p, Frame o (FRun p) ∈ concat (w_stack <$> p_workers s) → no_stop p;
  n_progs : Forall no_stop (p_progs s);
  n_len : length (p_workers s) = S (n - 1);
  n_good : good (p_workers s) }.

Lemma nrun_step l x y : fstep l x y →
  (∀ o p, Frame o (FRun p) ∈ fl_f x → no_stop p) → Forall no_stop (fl_progs x) →
  (∀ o p, Frame o (FRun p) ∈ fl_f y → no_stop p) ∧ Forall no_stop (fl_progs y).
Proof.
  intros Hs S1 S2. destruct Hs as
    [ts ps st q f o c p k f0 q' f' Hf Hq' Hf'|ts ps st q f v c q' f' Hq Hc Hf'|ts ps st q f v f0 f' Hf Hf'
    |ts ps st q f f' Hf|ts ps st q f o t k f0 f' x Hf Hf' Hx Hx0|ts ps st q f o k f0 f' Hf Hf'|ts ps st q f o a k f0 f' Hf Hf'
    |ts ps st q f o t f0 f' Hf Hf'|ts ps st q f o t f0 f' x p Hf Hf' Hx Hx0 Hp|ts ps st q f o t f' x Hf Hx _]; cbn in *.
  - destruct (S1 o (PSubmit c p k)) as (Hc & Hk); [rewrite Hf; left|]. split.
    + intros o1 p1. rewrite Hf'. intros [[= -> ->]|H]%elem_of_cons; [apply Hk|]. apply (S1 o1). rewrite Hf. by right.
    + apply Forall_app. split; [done|]. by constructor.
  - split; [|done]. intros o1 p1. rewrite Hf'. intros [[= -> ->]|H]%elem_of_cons; [|by apply (S1 o1)].
    rewrite Forall_lookup in S2. by eapply S2.
  - split; [|done]. intros o1 p1. rewrite Hf'. intros [?|H]%elem_of_cons; [done|]. apply (S1 o1). rewrite Hf. by right.
  - split; [|done]. intros o1 p1 H. apply (S1 o1). rewrite Hf. by right.
  - split; [|done]. intros o1 p1. rewrite Hf'. intros [[= -> ->]|H]%elem_of_cons; [|apply (S1 o1); rewrite Hf; by right].
    apply (S1 o (PWait t k)). rewrite Hf. left.
  - destruct (S1 o (PStop k)). rewrite Hf. left.
  - split; [|done]. intros o1 p1. rewrite Hf'. intros [[= -> ->]|H]%elem_of_cons; [|apply (S1 o1); rewrite Hf; by right].
    apply (S1 o (PAct a k)). rewrite Hf. left.
  - split; [|done]. intros o1 p1. rewrite Hf'. intros [?|H]%elem_of_cons; [done|]. apply (S1 o1). rewrite Hf. by right.
  - split; [|done]. intros o1 p1. rewrite Hf'. intros [?|H]%elem_of_cons; [done|]. apply (S1 o1). rewrite Hf. by right.
  - split; [|done]. intros o1 p1 H. apply (S1 o1). rewrite Hf. by right.
Qed.

Lemma good_alter f w ws : good ws → (∀ x, wok x → wok (f x)) → good (alter f w ws).
Proof.
  intros Hg Hf i x Hx Hi. destruct (decide (i = w)) as [->|Hw].
  - rewrite list_lookup_alter in Hx. apply fmap_Some in Hx as (y & Hy & ->). by apply Hf, (Hg w).
  - rewrite list_lookup_alter_ne in Hx by done. by apply (Hg i).
Qed.
Lemma get_task_good s w v r : get_task s w v = Some r → good (p_workers s) →
  good (p_workers r.2) ∧ length (p_workers r.2) = length (p_workers s).
Proof.
  unfold get_task. destruct (p_workers s !! w) as [x|]; [|done]. cbn.
  assert (∀ q j, good (p_workers s) → good (p_workers (upd_worker (set_queue q) j s)) ∧ length (p_workers (upd_worker (set_queue q) j s)) = length (p_workers s)) as H.
  { intros q j Hg. cbn. rewrite alter_length. split; [|done]. by apply good_alter. }
  destruct (last (w_queue x)) as [t|]; [intros [= <-]; apply H|].
  destruct v as [j|]; [|by intros [= <-]]. case_decide; [done|].
  destruct (p_workers s !! j) as [y|]; [|done]. cbn. destruct (w_queue y); [by intros [= <-]|].
  intros [= <-]. apply H.
Qed.
Lemma execute_good s w t s' : wk_execute s w t = Some s' → good (p_workers s) →
  good (p_workers s') ∧ length (p_workers s') = length (p_workers s).
Proof.
  unfold wk_execute. destruct (p_progs s !! t) as [c|]; [|done]. cbn. intros [= <-] Hg. cbn.
  rewrite alter_length. split; [|done]. by apply good_alter.
Qed.

Lemma ninv_step n s w v s' : pool_step s w v = Some s' → ninv n s → ninv n s'.
Proof.
  intros Hst [N1 N2 N3 N4].
  assert ((∀ o p, Frame o (FRun p) ∈ fl_f (flat_of (core_of s')) → no_stop p) ∧ Forall no_stop (fl_progs (flat_of (core_of s')))) as [N1' N2'].
  { pose proof Hst as Hc. apply pool_step_core in Hc as [->|[l Hc]]; [done|]. apply cstep_flat in Hc. by eapply nrun_step. }
  assert (good (p_workers s') ∧ length (p_workers s') = length (p_workers s)) as [Hg Hl].
  2: { constructor; [exact N1'|exact N2'|congruence|done]. }
  unfold pool_step in Hst. destruct (p_workers s !! w) as [x|] eqn:Hx; [|done]. cbn in Hst.
  destruct (w_stack x) as [|[o pc] st] eqn:Hs.
  - destruct (w_base x) eqn:Hb; [| |done].
    + destruct (get_task s w v) as [r|] eqn:Hr; [|done]. cbn in Hst. destruct (get_task_good _ _ _ _ Hr N4) as [Hg Hl].
      destruct r as [[u|] s1]; cbn in *.
      * apply execute_good in Hst as [? ?]; [|done]. split; [done|congruence].
      * injection Hst as <-. cbn. rewrite alter_length. split; [|done]. apply good_alter; [done|].
        by intros y [? ?].
    + injection Hst as <-. cbn. rewrite alter_length. split; [|done].
      intros i y Hy Hi. destruct (decide (i = w)) as [->|Hw].
      * rewrite list_lookup_alter, Hx in Hy. injection Hy as <-. destruct (N4 w x Hx Hi) as [Ha _]. rewrite Ha. by split.
      * rewrite list_lookup_alter_ne in Hy by done. by apply (N4 i).
  - assert (∀ ws, good ws → length ws = length (p_workers s) → ∀ st', good (alter (set_stack st') w ws) ∧
      length (alter (set_stack st') w ws) = length (p_workers s)) as Hset.
    { intros ws Hg Hl st'. rewrite alter_length. split; [|done]. by apply good_alter. }
    unfold frame_step in Hst. cbn in Hst. destruct pc as [[|c p k|t k|k|a k]|t|t].
    + destruct o; injection Hst as <-; by apply Hset.
    + injection Hst as <-. cbn. apply Hset; [|by rewrite alter_length]. by apply good_alter.
    + destruct (p_tasks s !! t) as [y|]; [|done]. cbn in Hst. case_bool_decide.
      * injection Hst as <-. by apply Hset.
      * destruct (get_task s w v) as [r|] eqn:Hr; [|done]. cbn in Hst. destruct (get_task_good _ _ _ _ Hr N4) as [Hg Hl].
        destruct r as [[u|] s1]; cbn in *.
        -- apply execute_good in Hst as [? ?]; [|done]. split; [done|]. cbn in *. congruence.
        -- by injection Hst as <-.
    + destruct (N1 o (PStop k)). apply elem_of_concat. exists w, (w_stack x). rewrite list_lookup_fmap, Hx. split; [done|].
      rewrite Hs. left.
    + injection Hst as <-. by apply Hset.
    + injection Hst as <-. by apply Hset.
    + destruct (p_tasks s !! t) as [y|]; [|done]. cbn in Hst. destruct (if bool_decide (t_ctr y = 0%N) then t_parent y else None).
      * injection Hst as <-. by apply Hset.
      * injection Hst as <-. by apply Hset.
Qed.
Lemma reach_ninv n main s : no_stop main → pool_reach n main s → ninv n s.
Proof.
  intros Hns. induction 1 as [|s w v s' _ IH Hst]; [|by eapply ninv_step]. constructor.
  - pose proof (flat_start n main) as E. apply (f_equal fl_f) in E. cbn [flat_of fl_f core_of c_ss] in E. rewrite E.
    by intros o p [= -> ->]%elem_of_list_singleton.
  - constructor.
  - cbn. by rewrite replicate_length.
  - intros [|w] x Hx Hw; [done|]. cbn in Hx. apply lookup_replicate in Hx as [-> _]. by split.
Qed.

(** With a background worker every submitted task can be executed. *)
Lemma can_take n s j q u : ninv n s → 2 ≤ n → ginv (flat_of (core_of s)) → concat (w_stack <$> p_workers s) = [] →
  (w_queue <$> p_workers s) !! j = Some q → u ∈ q →
  ∃ s1 w v s2, psteps s s1 ∧ core_of s1 = core_of s ∧ pool_step s1 w v = Some s2 ∧ core_of s2 ≠ core_of s1.
Proof.
  intros N Hn G Hc Hj Hu.
  destruct (lookup_lt_is_Some_2 (p_workers s) 1) as [x Hx]; [rewrite (n_len _ _ N); lia|].
  destruct (n_good _ _ N 1 x Hx) as [Ha Hb]; [done|].
  assert (∀ w y, p_workers s !! w = Some y → w_stack y = []) as Hempty.
  { intros w y Hy. destruct (w_stack y) as [|fr st] eqn:E; [done|]. exfalso.
    assert (fr ∈ concat (w_stack <$> p_workers s)) as H; [|rewrite Hc in H; by apply elem_of_nil in H].
    apply elem_of_concat. exists w, (w_stack y). rewrite list_lookup_fmap, Hy. split; [done|]. rewrite E. left. }
  assert (∃ s1 x1, psteps s s1 ∧ core_of s1 = core_of s ∧ p_workers s1 !! 1 = Some x1 ∧ w_base x1 = BGet) as (s1 & x1 & Hp & Ecore & Hx1 & Hb1).
  { destruct (w_base x) eqn:Eb; [exists s, x; split; [apply rtc_refl|done]| |done].
    exists (upd_worker (set_base BGet) 1 s), (set_base BGet x). split; [|split; [|split; [|done]]].
    - apply rtc_once. exists 1, None. unfold pool_step. rewrite Hx. cbn. by rewrite (Hempty 1 x Hx), Eb, Ha.
    - unfold core_of. cbn. by rewrite !(fmap_alter_same _) by done.
    - cbn. by rewrite list_lookup_alter, Hx. }
  assert ((w_stack <$> p_workers s1) = (w_stack <$> p_workers s) ∧ (w_queue <$> p_workers s1) = (w_queue <$> p_workers s) ∧ p_progs s1 = p_progs s ∧ p_tasks s1 = p_tasks s) as (Ess & Eqs & Eps & Ets).
  { split; [exact (f_equal c_ss Ecore)|]. split; [exact (f_equal c_qs Ecore)|]. split; [exact (f_equal c_progs Ecore)|exact (f_equal c_tasks Ecore)]. }
  assert (w_stack x1 = []) as Hst1.
  { assert ((w_stack <$> p_workers s1) !! 1 = Some (w_stack x1)) as H by (by rewrite list_lookup_fmap, Hx1).
    rewrite Ess, list_lookup_fmap, Hx in H. cbn in H. rewrite (Hempty 1 x Hx) in H. congruence. }
  assert (∃ v t s2, get_task s1 1 v = Some (Some t, s2) ∧ t < length (p_tasks s)) as (v & t & s2 & Hget & Ht).
  { unfold get_task. rewrite Hx1. cbn. destruct (last (w_queue x1)) as [t|] eqn:El.
    - exists None, t. eexists. split; [done|]. apply (ginv_q_lt _ t G). cbn. apply elem_of_concat. exists 1, (w_queue x1).
      rewrite <-Eqs, list_lookup_fmap, Hx1. split; [done|]. apply last_Some in El as [l ->]. apply elem_of_app. right. left.
    - apply last_None in El. rewrite <-Eqs, list_lookup_fmap in Hj. apply fmap_Some in Hj as (y & Hy & ->).
      destruct (decide (j = 1)) as [->|Hj1]; [rewrite Hx1 in Hy; injection Hy as <-; rewrite El in Hu; by apply elem_of_nil in Hu|].
      destruct (w_queue y) as [|t q] eqn:Eq; [by apply elem_of_nil in Hu|].
      exists (Some j), t. rewrite decide_False by done. rewrite Hy. cbn. rewrite Eq. eexists. split; [done|].
      apply (ginv_q_lt _ t G). cbn. apply elem_of_concat. exists j, (w_queue y).
      rewrite <-Eqs, list_lookup_fmap, Hy. split; [done|]. rewrite Eq. left. }
  assert (∃ s3, pool_step s1 1 v = Some s3 ∧ core_of s3 ≠ core_of s1) as (s3 & Hs3 & Hne).
  2: { by exists s1, 1, v, s3. }
  unfold pool_step. rewrite Hx1. cbn. rewrite Hst1, Hb1, Hget. cbn.
  assert (∃ c, p_progs s2 !! t = Some c) as [c Hpc].
  { apply get_task_core in Hget as [[=]|(? & ? & ? & ? & _ & _ & E & _)]. apply (f_equal c_progs) in E. cbn in E. rewrite E, Eps.
    apply lookup_lt_is_Some_2. pose proof (g_len _ G) as Hl. cbn in Hl. by rewrite Hl. }
  destruct (wk_execute s2 1 t) as [s3|] eqn:He; [|unfold wk_execute in He; by rewrite Hpc in He].
  exists s3. split; [done|]. intros E. apply (f_equal (length ∘ c_started)) in E. cbn in E.
  unfold wk_execute in He. rewrite Hpc in He. cbn in He. injection He as <-. cbn in E.
  apply get_task_core in Hget as [[=]|(? & ? & ? & ? & _ & _ & E2 & _)]. apply (f_equal c_started) in E2. cbn in E2.
  rewrite E2, app_length in E. cbn in E. lia.
Qed.

Lemma can_run_all n main s : fork_join [] main → no_stop main → 2 ≤ n → pool_reach n main s →
  ∃ s', psteps s s' ∧ concat (w_stack <$> p_workers s') = [] ∧ concat (w_queue <$> p_workers s') = [].
Proof.
  intros Hfj Hns Hn Hr. assert (scoped 0 main) as Hsc by (by eapply fork_join_scoped; [|exact Hfj]; intros u ?%elem_of_nil).
  remember (items (flat_of (core_of s))) as l eqn:El. revert s Hr El.
  induction (mlt_wf item_lt item_acc l) as [l _ IH]. intros s Hr ->.
  destruct (concat (w_stack <$> p_workers s)) as [|fr r] eqn:Ec.
  - destruct (concat (w_queue <$> p_workers s)) as [|u r] eqn:Eq; [exists s; split; [apply rtc_refl|done]|].
    assert (u ∈ concat (w_queue <$> p_workers s)) as Hu by (rewrite Eq; left).
    apply elem_of_concat in Hu as (j & q & Hj & Hu).
    destruct (can_take n s j q u) as (s1 & w & v & s2 & Hp & E1 & Hst & Hne); try done;
      [by apply (reach_ninv n main)|by apply (reach_ginv n main)|].
    pose proof (reach_psteps _ _ _ _ Hr Hp) as Hr1.
    destruct (step_items s1 w v s2 Hst (reach_sinv n main s1 Hsc Hr1)) as [_ [E|Hlt]]; [done|]. rewrite E1 in Hlt.
    destruct (IH _ Hlt s2) as (s' & Hs' & He); [by econstructor|done|].
    exists s'. split; [|done]. etrans; [exact Hp|]. eapply rtc_l; [by exists w, v|exact Hs'].
  - destruct (reach_pinv n main s Hfj Hr) as [ow I].
    destruct (can_go_on ow s I) as (w & v & s1 & Hst & Hne); [by rewrite Ec|].
    destruct (step_items s w v s1 Hst (reach_sinv n main s Hsc Hr)) as [_ [E|Hlt]].
    { apply (f_equal c_ss) in E. by cbn in E. }
    destruct (IH _ Hlt s1) as (s' & Hs' & He); [by econstructor|done|].
    exists s'. split; [|done]. eapply rtc_l; [by exists w, v|exact Hs'].
Qed.
