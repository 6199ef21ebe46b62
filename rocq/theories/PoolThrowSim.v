(** Without a throw the pool of PoolThrow.v does what the pool of ThreadPool.v does, so that its theorems apply. *)
From Verif Require Import Base Task ParallelFor ThreadPool ThreadPoolProofs ThreadPoolRun ThreadPoolJoin PropThreadPool PoolThrow PoolThrowProofs.
Local Open Scope nat_scope.

Section sim.
Context (n : nat).
Definition wait_then (o : option nat) (q : prog) : prog := match o with Some t => PWait t q | None => q end.
(** The program, and then [q]. *)
Fixpoint comp (p : xprog) (q : prog) {struct p} : prog :=
  match p with
  | XDone | XThrow => q
  | XMark _ k => comp k q
  | XEach elems k =>
    let es := map comp elems in
    match pf_batches n (length elems) with
    | None => foldr (λ f r, f r) (comp k q) es
    | Some bs => submit_all None ((λ b, foldr (λ f r, f r) PDone (subrange es b)) <$> bs) (λ o, wait_then o (comp k q))
    end
  | XTry p _ k => comp p (comp k q)
  end.
Definition comp_body (b : list xprog) : prog := foldr comp PDone b.
Fixpoint comp_code (l : list seg) : prog :=
  match l with
  | [] => PDone
  | SRun p :: l => comp p (comp_code l)
  | STry _ :: l => comp_code l
  | SSubmit _ bs o :: l => submit_all o (comp_body <$> bs) (λ o, wait_then o (comp_code l))
  | SWait _ t :: l => PWait t (comp_code l)
  end.
Lemma comp_list es q : foldr (λ f r, f r) q (map comp es) = foldr comp q es.
Proof. induction es as [|e es IH]; [done|]. cbn. by rewrite IH. Qed.
Lemma comp_each elems k q : comp (XEach elems k) q =
  match pf_batches n (length elems) with
  | None => foldr comp (comp k q) elems
  | Some bs => submit_all None (comp_body <$> (subrange elems <$> bs)) (λ o, wait_then o (comp k q))
  end.
Proof.
  cbn [comp]. destruct (pf_batches n (length elems)) as [bs|]; [|apply comp_list]. f_equal. rewrite <- list_fmap_compose. apply list_fmap_ext. intros _ [b e] _. cbn.
  unfold comp_body. rewrite <- comp_list. f_equal. unfold subrange. cbn. by rewrite skipn_map, firstn_map.
Qed.
Lemma comp_elems es l : comp_code ((SRun <$> es) ++ l) = foldr comp (comp_code l) es.
Proof. induction es as [|e es IH]; [done|]. cbn. by rewrite <- IH. Qed.
Lemma fj_comp p : ∀ own q, fork_join own q → fork_join own (comp p q).
Proof.
  induction p as [|m k IHk| |es k IHe IHk|p h k IHp _ IHk] using xprog_ind'; intros own q Hq; [done|by apply IHk|done| |by apply IHp, IHk].
  rewrite comp_each. destruct (pf_batches n (length es)) as [bs|].
  - apply fork_join_submit; [|by apply IHk|].
    + apply Forall_fmap, Forall_fmap, Forall_forall. intros [b e] _. cbn. unfold comp_body, subrange. cbn. assert (Forall (λ p, ∀ own q, fork_join own q → fork_join own (comp p q)) (take (e - b) (drop b es))) as H by (by apply Forall_take, Forall_drop).
      induction H as [|x l Hx _ IH]; [done|]. cbn. by apply Hx.
    + intros t. cbn. split; [left|]. apply IHk. eapply fork_join_weaken; [|exact Hq]. set_solver.
  - induction IHe as [|e es He _ IH]; cbn; [by apply IHk|]. by apply He.
Qed.

(** * States *)
Definition fr_of (f : xframe) : frame :=
  Frame (xf_task f) (match xf_pc f with XCode l => FRun (comp_code l) | XSub t => FSub t | XCheck t => FCheck t end).
Definition wk_of (w : nat) (x : xworker) : worker := Worker (xw_queue x) (fr_of <$> xw_stack x) (if decide (w = 0) then BExit else BGet) true.
Definition tp_of (s : xpool) (sem : N) (started : list nat) : tpool :=
  TPool (xt_task <$> x_tasks s) ((λ x, comp_body (xt_body x)) <$> x_tasks s) (imap wk_of (x_workers s)) sem started.
Lemma tp_start p : 1 ≤ n → tp_of (x_start n p) 0 [] = pool_start n (comp p PDone).
Proof.
  intros Hn. unfold tp_of, pool_start. cbn. f_equal. f_equal. assert (∀ k m, imap (wk_of ∘ S ∘ plus k) (replicate m (XWorker [] [])) = replicate m (Worker [] [] BGet true)) as H.
  { intros k m. revert k. induction m as [|m IH]; intros k; [done|]. cbn. f_equal. rewrite <- (IH (S k)). apply imap_ext. intros i x _. cbn. by rewrite Nat.add_succ_r. }
  rewrite <- (H 0). apply imap_ext. done.
Qed.
Lemma alter_wk (f : xworker → xworker) (g : worker → worker) (w : nat) (ws : list xworker) : (∀ x, ws !! w = Some x → wk_of w (f x) = g (wk_of w x)) → imap wk_of (alter f w ws) = alter g w (imap wk_of ws).
Proof.
  intros H. apply list_eq. intros i. rewrite list_lookup_imap. destruct (decide (i = w)) as [->|N].
  - rewrite !list_lookup_alter, list_lookup_imap. destruct (ws !! w) as [x|]; [|done]. cbn. by rewrite H.
  - rewrite !list_lookup_alter_ne by done. by rewrite list_lookup_imap.
Qed.
Lemma alter_task (f : xtask → xtask) (g : task → task) (t : nat) (ts : list xtask) : (∀ x, xt_task (f x) = g (xt_task x)) → xt_task <$> alter f t ts = alter g t (xt_task <$> ts).
Proof.
  intros H. apply list_eq. intros i. rewrite list_lookup_fmap. destruct (decide (i = t)) as [->|N].
  - rewrite !list_lookup_alter, list_lookup_fmap. destruct (ts !! t) as [x|]; [|done]. cbn. by rewrite H.
  - rewrite !list_lookup_alter_ne by done. by rewrite list_lookup_fmap.
Qed.
Lemma alter_body (f : xtask → xtask) (t : nat) (ts : list xtask) : (∀ x, xt_body (f x) = xt_body x) → (λ x, comp_body (xt_body x)) <$> alter f t ts = (λ x, comp_body (xt_body x)) <$> ts.
Proof.
  intros H. apply list_eq. intros i. rewrite !list_lookup_fmap. destruct (decide (i = t)) as [->|N].
  - rewrite list_lookup_alter. destruct (ts !! t) as [x|]; [|done]. cbn. by rewrite H.
  - by rewrite list_lookup_alter_ne by done.
Qed.
Lemma stack_of s sem sd w x : x_workers s !! w = Some x → p_workers (tp_of s sem sd) !! w = Some (wk_of w x).
Proof. intros H. cbn. by rewrite list_lookup_imap, H. Qed.
Lemma upd_of s sem sd w st : upd_worker (set_stack (fr_of <$> st)) w (tp_of s sem sd) = tp_of (x_upd (xw_set_stack st) w s) sem sd.
Proof. unfold upd_worker, tp_of. cbn. f_equal. symmetry. apply alter_wk. done. Qed.
Lemma get_of s sem sd w v : get_task (tp_of s sem sd) w v = (λ r, (r.1, tp_of r.2 sem sd)) <$> x_get_task w v s.
Proof.
  unfold get_task, x_get_task. cbn [p_workers tp_of]. rewrite list_lookup_imap. destruct (x_workers s !! w) as [x|]; [|done]. cbn [fmap option_fmap option_map mbind option_bind wk_of w_queue].
  destruct (last (xw_queue x)) as [t|].
  - cbn. f_equal. f_equal. unfold upd_worker, tp_of. cbn. f_equal. symmetry. by apply alter_wk.
  - destruct v as [j|]; [|done]. destruct (decide (j = w)); [done|]. rewrite list_lookup_imap. destruct (x_workers s !! j) as [y|]; [|done]. cbn [fmap option_fmap option_map mbind option_bind wk_of w_queue].
    destruct (xw_queue y) as [|t q]; [done|]. cbn. f_equal. f_equal. unfold upd_worker, tp_of. cbn. f_equal. symmetry. by apply alter_wk.
Qed.
Lemma execute_of s sem sd w t s' : x_execute w t s = Some s' → x_end s = None → x_end s' = None → wk_execute (tp_of s sem sd) w t = Some (tp_of s' sem (sd ++ [t])).
Proof.
  unfold x_execute, wk_execute. intros Hs He He'. cbn [p_progs tp_of]. rewrite list_lookup_fmap. destruct (x_tasks s !! t) as [x|]; [|done]. cbn [fmap option_fmap option_map mbind option_bind] in Hs |- *.
  destruct (x_lives s (Some t)); injection Hs as <-; [|done]. f_equal. unfold upd_worker, tp_of. cbn. f_equal. symmetry. apply alter_wk. intros y _. unfold wk_of. cbn. f_equal. f_equal.
  unfold fr_of. cbn. f_equal. f_equal. pose proof (comp_elems (xt_body x) []) as E. rewrite app_nil_r in E. by rewrite E.
Qed.

Lemma silent_of s sem sd w x st : x_workers s !! w = Some x → fr_of <$> st = fr_of <$> xw_stack x → tp_of (x_upd (xw_set_stack st) w s) sem sd = tp_of s sem sd.
Proof.
  intros Hx E. unfold tp_of. cbn. f_equal. rewrite (alter_wk _ id).
  - apply list_eq. intros i. destruct (decide (i = w)) as [->|N]; [|by rewrite list_lookup_alter_ne]. rewrite list_lookup_alter. by destruct (imap wk_of (x_workers s) !! w).
  - intros y Hy. rewrite Hx in Hy. injection Hy as <-. unfold wk_of. cbn. by rewrite E.
Qed.
Lemma step_of s sem sd w v x fr st : x_workers s !! w = Some x → xw_stack x = fr :: st →
  pool_step (tp_of s sem sd) w v = frame_step (tp_of s sem sd) w v (fr_of fr) (fr_of <$> st).
Proof. intros Hx Hst. unfold pool_step. rewrite (stack_of _ _ _ _ _ Hx). cbn. by rewrite Hst. Qed.
Lemma threw_get w v s r : x_get_task w v s = Some r → x_threw r.2 = x_threw s ∧ x_end r.2 = x_end s ∧ x_dead r.2 = x_dead s ∧ x_tasks r.2 = x_tasks s ∧ x_next r.2 = x_next s ∧
  length (x_workers r.2) = length (x_workers s).
Proof.
  unfold x_get_task. intros H. destruct (x_workers s !! w) as [x|]; [|done]. cbn in H. destruct (last (xw_queue x)); [injection H as <-; cbn; by rewrite alter_length|].
  destruct v as [j|]; [|by injection H as <-]. destruct (decide (j = w)); [done|]. destruct (x_workers s !! j) as [y|]; [|done]. cbn in H.
  destruct (xw_queue y); injection H as <-; [done|]. cbn. by rewrite alter_length.
Qed.
Definition mstep (s s' : tpool) : Prop := ∃ w v, pool_step s w v = Some s'.
Lemma psteps_one s s' : mstep s s' → psteps s s'. Proof. intros H. by apply rtc_once. Qed.
Lemma get_step s sem sd w v s' : x_end s = None → x_end s' = None →
  (r ← x_get_task w v s; match r.1 with Some u => x_execute w u r.2 | None => Some r.2 end) = Some s' →
  s' = s ∧ get_task (tp_of s sem sd) w v = Some (None, tp_of s sem sd) ∨
  ∃ u s1, get_task (tp_of s sem sd) w v = Some (Some u, tp_of s1 sem sd) ∧ ∀ sem', wk_execute (tp_of s1 sem' sd) w u = Some (tp_of s' sem' (sd ++ [u])).
Proof.
  intros He He' Hs. rewrite get_of. destruct (x_get_task w v s) as [[[u|] s1]|] eqn:Hg; [| |done]; cbn [mbind option_bind fst snd] in Hs.
  - right. exists u, s1. split; [done|]. intros sem'. apply execute_of; [done| |done]. apply threw_get in Hg as (_ & E & _). cbn in E. by rewrite E.
  - left. injection Hs as <-. assert (s1 = s) as ->; [|done]. unfold x_get_task in Hg. destruct (x_workers s !! w) as [x|]; [|done]. cbn in Hg. destruct (last (xw_queue x)); [done|].
    destruct v as [j|]; [|by injection Hg]. destruct (decide (j = w)); [done|]. destruct (x_workers s !! j) as [y|]; [|done]. cbn in Hg. by destruct (xw_queue y); injection Hg.
Qed.
Lemma submit_of s sem sd w sc b par o l bs st x : x_workers s !! w = Some x →
  upd_worker (set_stack (Frame o (FRun (comp_code (SSubmit sc bs (Some (default (length (x_tasks s)) par)) :: l))) :: (fr_of <$> st))) w (wk_submit (tp_of s sem sd) w (comp_body b) par) =
  tp_of (x_upd (xw_set_stack (XFrame o (XCode (SSubmit sc bs (Some (default (length (x_tasks s)) par)) :: l)) :: st)) w (x_submit w sc b par s)) (sem + 1) sd.
Proof.
  intros Hx. unfold wk_submit, wake_worker, upd_worker, tp_of. cbn [p_tasks p_progs p_workers p_sem p_started x_submit x_upd x_set_workers x_set_tasks x_tasks x_workers].
  f_equal.
  - rewrite fmap_app. cbn. f_equal. destruct par as [q|]; [|done]. by rewrite (alter_task _ (upd_ctr inc16)).
  - rewrite fmap_app. cbn. f_equal. destruct par as [q|]; [|done]. by rewrite alter_body.
  - rewrite fmap_length. rewrite (alter_wk _ (set_stack (Frame o (FRun (comp_code (SSubmit sc bs (Some (default (length (x_tasks s)) par)) :: l))) :: (fr_of <$> st)))) by done.
    f_equal. symmetry. by apply alter_wk.
Qed.
Lemma sim_step s w v s' sem sd : length (x_workers s) = n → x_end s = None → x_step w v s = Some s' → x_threw s' = false → x_end s' = None →
  ∃ sem' sd', psteps (tp_of s sem sd) (tp_of s' sem' sd').
Proof.
  intros Hn He Hs Ht He'. unfold x_step in Hs. rewrite He in Hs. destruct (x_workers s !! w) as [x|] eqn:Hx; [|done]. cbn [mbind option_bind] in Hs.
  destruct (xw_stack x) as [|[o [l|t|t]] st] eqn:Hst.
  - destruct w as [|w]; [done|]. destruct (get_step _ sem sd _ _ _ He He' Hs) as [[-> Hg]|(u & s1 & Hg & Hex)]; [by exists sem, sd|].
    exists sem, (sd ++ [u]). apply psteps_one. exists (S w), v. unfold pool_step. rewrite (stack_of _ _ _ _ _ Hx). cbn. rewrite Hst. cbn. rewrite Hg. cbn. apply Hex.
  - pose proof (λ v, step_of s sem sd w v x _ _ Hx Hst) as Hp.
    assert (∀ l' s2, tp_of s2 sem sd = tp_of s sem sd → x_workers s2 = x_workers s → comp_code l' = comp_code l → tp_of (x_upd (xw_set_stack (XFrame o (XCode l') :: st)) w s2) sem sd = tp_of s sem sd) as Hsil.
    { intros l' s2 E2 Ew Ec. rewrite <- E2. eapply silent_of; [by rewrite Ew|]. rewrite Hst. cbn. unfold fr_of. cbn. by rewrite Ec. }
    destruct l as [|[pr|sc bs par|sc t|h] l].
    + cbn [x_code] in Hs. exists sem, sd. apply psteps_one. exists w, v. rewrite Hp. destruct o as [t|]; injection Hs as <-; cbn -[upd_worker].
      * f_equal. rewrite <- (upd_of _ sem sd). unfold p_set_tasks, tp_of. cbn. rewrite (alter_task _ set_done), alter_body by done. done.
      * f_equal. apply upd_of.
    + exists sem, sd. destruct pr as [|m k| |es k|pr h k]; cbn [x_code] in Hs.
      * injection Hs as <-. rewrite Hsil by done. apply rtc_refl.
      * destruct (x_lives s o); injection Hs as <-; [|done]. rewrite Hsil by done. apply rtc_refl.
      * injection Hs as <-. unfold x_throw in Ht. destruct (unwind _) as [ds [|]]; done.
      * rewrite Hn in Hs. destruct (pf_batches n (length es)) as [bs|] eqn:E; injection Hs as <-.
        -- rewrite Hsil; [apply rtc_refl|done|done|]. cbn [comp_code]. by rewrite comp_each, E.
        -- rewrite Hsil; [apply rtc_refl|done|done|]. rewrite comp_elems. cbn [comp_code]. by rewrite comp_each, E.
      * injection Hs as <-. rewrite Hsil by done. apply rtc_refl.
    + destruct bs as [|b bs].
      * exists sem, sd. destruct par as [t|]; injection Hs as <-; rewrite Hsil by done; apply rtc_refl.
      * cbn [x_code] in Hs. injection Hs as <-. exists (sem + 1)%N, sd. apply psteps_one. exists w, v. rewrite Hp. rewrite <- (submit_of _ _ _ _ _ _ _ _ _ _ _ _ Hx).
        cbn -[upd_worker wk_submit]. by rewrite fmap_length.
    + cbn [x_code] in Hs. destruct (x_tasks s !! t) as [y|] eqn:Hy; [|done]. cbn [mbind option_bind] in Hs.
      assert (frame_step (tp_of s sem sd) w v (fr_of (XFrame o (XCode (SWait sc t :: l)))) (fr_of <$> st) =
        if bool_decide (t_ctr (xt_task y) = 0%N) then Some (upd_worker (set_stack (Frame o (FRun (comp_code l)) :: (fr_of <$> st))) w (tp_of s sem sd))
        else r ← get_task (tp_of s sem sd) w v; match r.1 with Some u => wk_execute (wake_worker r.2) w u | None => Some (wake_worker r.2) end) as Hfs.
      { unfold frame_step. cbn [fr_of f_pc xf_pc comp_code f_task xf_task p_tasks tp_of]. rewrite list_lookup_fmap, Hy. done. }
      destruct (bool_decide (t_ctr (xt_task y) = 0%N)).
      * injection Hs as <-. exists sem, sd. apply psteps_one. exists w, v. rewrite Hp, Hfs. f_equal. apply (upd_of (x_set_dead _ s) sem sd w (XFrame o (XCode l) :: st)).
      * destruct (get_step _ sem sd _ _ _ He He' Hs) as [[-> Hg]|(u & s1 & Hg & Hex)]; rewrite Hg in Hfs; cbn [mbind option_bind fst snd] in Hfs.
        -- exists (sem + 1)%N, sd. apply psteps_one. exists w, v. rewrite Hp, Hfs. done.
        -- exists (sem + 1)%N, (sd ++ [u]). apply psteps_one. exists w, v. rewrite Hp, Hfs. apply (Hex (sem + 1)%N).
    + injection Hs as <-. exists sem, sd. rewrite Hsil by done. apply rtc_refl.
  - injection Hs as <-. exists sem, sd. apply psteps_one. exists w, v. rewrite (step_of s sem sd w v x _ _ Hx Hst). cbn -[upd_worker]. f_equal. rewrite <- (upd_of _ sem sd). unfold p_set_tasks, tp_of. cbn.
    rewrite (alter_task _ (upd_ctr dec16)), alter_body by done. done.
  - destruct (x_tasks s !! t) as [y|] eqn:Hy; [|done]. cbn [mbind option_bind] in Hs. exists sem, sd. apply psteps_one. exists w, v. rewrite (step_of s sem sd w v x _ _ Hx Hst).
    cbn -[upd_worker]. rewrite list_lookup_fmap, Hy. cbn -[upd_worker]. destruct (if bool_decide _ then _ else _) as [q|]; injection Hs as <-; f_equal; [exact (upd_of s sem sd w (XFrame o (XSub q) :: st))|apply upd_of].
Qed.

(** * The scopes *)
Definition seg_info (x : seg) : list (nat * option nat) := match x with SSubmit sc _ o => [(sc, o)] | SWait sc t => [(sc, Some t)] | _ => [] end.
Definition code_info (l : list seg) : list (nat * option nat) := l ≫= seg_info.
Definition fr_info (f : xframe) : list (nat * option nat) := match xf_pc f with XCode l => code_info l | _ => [] end.
Definition st_info (st : list xframe) : list (nat * option nat) := st ≫= fr_info.
Definition infos (ws : list xworker) : list (nat * option nat) := ws ≫= (λ w, st_info (xw_stack w)).
Lemma infos_upd ws w x : ws !! w = Some x → ∃ R, infos ws ≡ₚ st_info (xw_stack x) ++ R ∧ ∀ f, infos (alter f w ws) ≡ₚ st_info (xw_stack (f x)) ++ R.
Proof.
  intros Hx. exists (infos (take w ws) ++ infos (drop (S w) ws)). split.
  - rewrite <- (take_drop_middle ws w x Hx) at 1. unfold infos. rewrite bind_app. cbn [mbind list_bind]. by rewrite Permutation_app_swap_app.
  - intros f. assert (alter f w ws = <[w := f x]> ws) as ->.
    { apply list_eq. intros i. destruct (decide (i = w)) as [->|N]; [rewrite list_lookup_alter, list_lookup_insert, Hx by (by eapply lookup_lt_Some); done|by rewrite list_lookup_alter_ne, list_lookup_insert_ne]. }
    rewrite insert_take_drop by (by eapply lookup_lt_Some). unfold infos. rewrite bind_app. cbn [mbind list_bind]. by rewrite Permutation_app_swap_app.
Qed.
Definition belongs (o : option nat) (t : nat) (x : task) : Prop := match o with None => False | Some r => t = r ∨ t_parent x = Some r end.
Record dinv (s : xpool) : Prop := {
  d_nodup : NoDup ((infos (x_workers s)).*1 ++ x_dead s);
  d_lt : Forall (λ c, c < x_next s) ((infos (x_workers s)).*1 ++ x_dead s);
  d_task : ∀ t x, x_tasks s !! t = Some x → xt_scope x < x_next s;
  d_info : ∀ sc o t x, (sc, o) ∈ infos (x_workers s) → x_tasks s !! t = Some x → xt_scope x = sc → belongs o t (xt_task x);
  d_done : ∀ t x, x_tasks s !! t = Some x → xt_scope x ∈ x_dead s → t_done (xt_task x) = true }.
(** Changes that keep the scopes, and of the tasks only count or finish. *)
Lemma dinv_same s s' : dinv s → infos (x_workers s') ≡ₚ infos (x_workers s) → x_dead s' = x_dead s → x_next s' = x_next s →
  (∀ t x', x_tasks s' !! t = Some x' → ∃ x, x_tasks s !! t = Some x ∧ xt_scope x' = xt_scope x ∧ t_parent (xt_task x') = t_parent (xt_task x) ∧ (t_done (xt_task x) = true → t_done (xt_task x') = true)) →
  dinv s'.
Proof.
  intros [D1 D2 D3 D4 D5] Hi Hd Hn Ht. split; rewrite ?Hd, ?Hn.
  - by rewrite Hi.
  - by rewrite Hi.
  - intros t x' Hx'. destruct (Ht _ _ Hx') as (x & Hx & -> & _). by eapply D3.
  - intros sc o t x' Hin Hx' <-. rewrite Hi in Hin. destruct (Ht _ _ Hx') as (x & Hx & E & Ep & _). rewrite E in Hin. specialize (D4 _ _ _ _ Hin Hx eq_refl). destruct o as [r|]; [|done]. cbn in *. by rewrite Ep.
  - intros t x' Hx' Hin. destruct (Ht _ _ Hx') as (x & Hx & E & _ & Hdn). rewrite E in Hin. apply Hdn. by eapply D5.
Qed.
Lemma same_alter (f : task → task) (t : nat) (ts : list xtask) : (∀ x, t_parent (f x) = t_parent x ∧ (t_done x = true → t_done (f x) = true)) →
  ∀ u x', alter (xt_upd f) t ts !! u = Some x' → ∃ x, ts !! u = Some x ∧ xt_scope x' = xt_scope x ∧ t_parent (xt_task x') = t_parent (xt_task x) ∧ (t_done (xt_task x) = true → t_done (xt_task x') = true).
Proof.
  intros Hf u x' Hu. destruct (decide (u = t)) as [->|N].
  - rewrite list_lookup_alter in Hu. destruct (ts !! t) as [x|]; [|done]. injection Hu as <-. exists x. split; [done|]. split; [done|]. apply Hf.
  - rewrite list_lookup_alter_ne in Hu by done. by exists x'.
Qed.
Lemma stack_info s w x st' : x_workers s !! w = Some x → st_info st' ≡ₚ st_info (xw_stack x) → infos (alter (xw_set_stack st') w (x_workers s)) ≡ₚ infos (x_workers s).
Proof. intros Hx E. destruct (infos_upd _ _ _ Hx) as (R & E1 & E2). rewrite E1, (E2 (xw_set_stack st')). cbn. by rewrite E. Qed.
Lemma queue_info ws w (f : list nat → list nat) : infos (alter (λ x, xw_set_queue (f (xw_queue x)) x) w ws) = infos ws.
Proof.
  unfold infos. revert w. induction ws as [|y ws IH]; intros [|w]; [done|done|done|]. cbn. f_equal. apply IH.
Qed.
Lemma elems_info es l : code_info ((SRun <$> es) ++ l) = code_info l.
Proof. unfold code_info. rewrite bind_app. induction es as [|e es IH]; [done|exact IH]. Qed.
Lemma queue_info' ws w q : infos (alter (xw_set_queue q) w ws) = infos ws. Proof. apply (queue_info ws w (λ _, q)). Qed.
Lemma get_info w v s r : x_get_task w v s = Some r → infos (x_workers r.2) = infos (x_workers s).
Proof.
  unfold x_get_task. intros H. destruct (x_workers s !! w) as [x|]; [|done]. cbn in H. destruct (last (xw_queue x)); [injection H as <-; cbn; by rewrite queue_info'|].
  destruct v as [j|]; [|by injection H as <-]. destruct (decide (j = w)); [done|]. destruct (x_workers s !! j) as [y|]; [|done]. cbn in H.
  destruct (xw_queue y); injection H as <-; [done|]. cbn. by rewrite queue_info'.
Qed.
Lemma exec_info w t s s' : x_execute w t s = Some s' → infos (x_workers s') ≡ₚ infos (x_workers s) ∧ x_dead s' = x_dead s ∧ x_next s' = x_next s ∧ x_tasks s' = x_tasks s ∧ x_threw s' = x_threw s ∧
  length (x_workers s') = length (x_workers s).
Proof.
  unfold x_execute. intros H. destruct (x_tasks s !! t) as [x|]; [|done]. cbn [mbind option_bind] in H. destruct (x_lives s (Some t)); injection H as <-; [|done]. cbn. rewrite alter_length. split; [|done].
  destruct (x_workers s !! w) as [y|] eqn:Hy.
  - destruct (infos_upd _ _ _ Hy) as (R & E1 & E2). rewrite E1, (E2 (λ y, xw_set_stack (XFrame (Some t) (XCode (SRun <$> xt_body x)) :: xw_stack y) y)). cbn. unfold fr_info. cbn. pose proof (elems_info (xt_body x) []) as E. rewrite app_nil_r in E. by rewrite E.
  - apply Permutation_refl'. f_equal. apply list_eq. intros i. destruct (decide (i = w)) as [->|N]; [by rewrite list_lookup_alter, Hy|by rewrite list_lookup_alter_ne].
Qed.

(** * No function uses a scope that was left *)
Record sinv (p : xprog) (s : xpool) : Prop := {
  s_end : x_end s = None;
  s_len : length (x_workers s) = n;
  s_scopes : dinv s;
  s_sim : ∃ sem sd, pool_reach n (comp p PDone) (tp_of s sem sd) }.
Lemma not_queued p s sem sd w x t y : pool_reach n (comp p PDone) (tp_of s sem sd) → x_workers s !! w = Some x → t ∈ xw_queue x → x_tasks s !! t = Some y → t_done (xt_task y) = false.
Proof.
  intros Hr Hx Ht Hy. destruct (t_done (xt_task y)) eqn:Hd; [|done]. exfalso.
  pose proof (C54_each_task_once _ _ _ Hr) as Hp. assert (p_tasks (tp_of s sem sd) !! t = Some (xt_task y)) as Hy' by (cbn; by rewrite list_lookup_fmap, Hy).
  destruct (C54_one_call _ _ _ _ _ Hr Hy') as [_ H]. apply H in Hd as [Hd _]. assert (NoDup (p_started (tp_of s sem sd) ++ queued (tp_of s sem sd))) as Hnd by (rewrite Hp; apply NoDup_seq).
  apply NoDup_app in Hnd as (_ & Hnd & _). apply (Hnd t Hd). unfold queued. apply elem_of_concat. exists w, (xw_queue x). split; [|done]. by rewrite list_lookup_fmap, (stack_of _ _ _ _ _ Hx).
Qed.
Lemma not_called p s sem sd w x t y l st : pool_reach n (comp p PDone) (tp_of s sem sd) → x_workers s !! w = Some x → xw_stack x = XFrame (Some t) (XCode l) :: st → x_tasks s !! t = Some y → t_done (xt_task y) = false.
Proof.
  intros Hr Hx Hst Hy. destruct (t_done (xt_task y)) eqn:Hd; [|done]. exfalso.
  assert (p_tasks (tp_of s sem sd) !! t = Some (xt_task y)) as Hy' by (cbn; by rewrite list_lookup_fmap, Hy). destruct (C54_one_call _ _ _ _ _ Hr Hy') as [_ H]. apply H in Hd as [_ Hd].
  apply (Hd (comp_code l)). apply elem_of_concat. exists w, (fr_of <$> xw_stack x). split; [|rewrite Hst; left]. unfold calls. by rewrite list_lookup_fmap, (stack_of _ _ _ _ _ Hx).
Qed.
Lemma get_queue w v s u s1 : x_get_task w v s = Some (Some u, s1) → ∃ j x, x_workers s !! j = Some x ∧ u ∈ xw_queue x.
Proof.
  unfold x_get_task. intros H. destruct (x_workers s !! w) as [x|] eqn:Hx; [|done]. cbn in H. destruct (last (xw_queue x)) as [t|] eqn:Hl.
  - injection H as <- <-. exists w, x. split; [done|]. apply last_Some in Hl as [l ->]. apply elem_of_app. right. left.
  - destruct v as [j|]; [|done]. destruct (decide (j = w)); [done|]. destruct (x_workers s !! j) as [y|] eqn:Hy; [|done]. cbn in H. destruct (xw_queue y) as [|t q] eqn:Hq; [done|].
    injection H as <- <-. exists j, y. split; [done|]. rewrite Hq. left.
Qed.
Lemma exec_live p s w v u s1 s' : sinv p s → x_get_task w v s = Some (Some u, s1) → x_execute w u s1 = Some s' → x_end s' = None.
Proof.
  intros [He Hl D (sem & sd & Hr)] Hg Hx. pose proof (threw_get _ _ _ _ Hg) as (_ & E1 & E2 & E3 & _). cbn in E1, E2, E3. unfold x_execute in Hx. rewrite E3 in Hx.
  destruct (x_tasks s !! u) as [y|] eqn:Hy; [|done]. cbn [mbind option_bind] in Hx. destruct (x_lives s1 (Some u)) eqn:Hlv; injection Hx as <-; [cbn; by rewrite E1|exfalso].
  cbn in Hlv. rewrite E3, E2, Hy in Hlv. apply bool_decide_eq_false in Hlv. apply dec_stable in Hlv. destruct (get_queue _ _ _ _ _ Hg) as (j & x & Hj & Hin).
  pose proof (d_done _ D _ _ Hy Hlv) as Hd. rewrite (not_queued _ _ _ _ _ _ _ _ Hr Hj Hin Hy) in Hd. done.
Qed.
Lemma sinv_step p s w v s' : sinv p s → fork_join [] (comp p PDone) → x_step w v s = Some s' → x_threw s' = false → (N.of_nat (length (x_tasks s)) < 65536)%N → sinv p s'.
Proof.
  intros I Hfj Hs Ht Hlt.
  assert (x_end s' = None ∧ length (x_workers s') = n ∧ dinv s') as (He' & Hl' & D').
  2:{ destruct I as [He Hl D (sem & sd & Hr)]. split; try done. destruct (sim_step s w v s' sem sd Hl He Hs Ht He') as (sem' & sd' & Hps). exists sem', sd'.
      clear -Hr Hps. induction Hps as [|a b c (w & v & Hab) _ IH]; [done|]. apply IH. by econstructor. }
  pose proof I as [He Hl D (sem & sd & Hr)]. unfold x_step in Hs. rewrite He in Hs. destruct (x_workers s !! w) as [x|] eqn:Hx; [|done]. cbn [mbind option_bind] in Hs.
  assert (∀ r, x_get_task w v s = Some r → match r.1 with Some u => x_execute w u r.2 | None => Some r.2 end = Some s' → x_end s' = None ∧ length (x_workers s') = n ∧ dinv s') as Hget.
  { intros [[u|] s1] Hg Hr'; cbn [fst snd] in Hr'; pose proof (threw_get _ _ _ _ Hg) as (E0 & E1 & E2 & E3 & E4 & E5); pose proof (get_info _ _ _ _ Hg) as E6; cbn [snd] in *.
    - split; [by eapply exec_live|]. apply exec_info in Hr' as (F1 & F2 & F3 & F4 & F5 & F6). split; [by rewrite F6, E5|].
      apply (dinv_same s); [done|by rewrite F1, E6|by rewrite F2|by rewrite F3|]. rewrite F4, E3. intros t y Hy. by exists y.
    - injection Hr' as <-. split; [by rewrite E1|]. split; [by rewrite E5|]. apply (dinv_same s); [done|by rewrite E6|done|done|]. rewrite E3. intros t y Hy. by exists y. }
  assert (∀ st' ts' tr, st_info st' ≡ₚ st_info (xw_stack x) →
    (∀ t x', ts' !! t = Some x' → ∃ x, x_tasks s !! t = Some x ∧ xt_scope x' = xt_scope x ∧ t_parent (xt_task x') = t_parent (xt_task x) ∧ (t_done (xt_task x) = true → t_done (xt_task x') = true)) →
    s' = x_upd (xw_set_stack st') w (x_set_trace tr (x_set_tasks ts' s)) → x_end s' = None ∧ length (x_workers s') = n ∧ dinv s') as Hgo.
  { intros st' ts' tr Ei Hts ->. split; [done|]. split; [cbn; by rewrite alter_length|]. apply (dinv_same s); try done. cbn. by eapply stack_info. }
  assert (∀ t y, x_tasks s !! t = Some y → ∃ x, x_tasks s !! t = Some x ∧ xt_scope y = xt_scope x ∧ t_parent (xt_task y) = t_parent (xt_task x) ∧ (t_done (xt_task x) = true → t_done (xt_task y) = true)) as Hid by (intros t y Hy; by exists y).
  assert (∀ st', x_upd (xw_set_stack st') w s = x_upd (xw_set_stack st') w (x_set_trace (x_trace s) (x_set_tasks (x_tasks s) s))) as Hself by (intros; by destruct s).
  destruct (xw_stack x) as [|[o [l|t|t]] st] eqn:Hst.
  - destruct w as [|w]; [done|]. destruct (x_get_task (S w) v s) as [r|] eqn:Hg; [|done]. cbn [mbind option_bind] in Hs. by eapply Hget.
  - destruct l as [|[pr|sc bs par|sc t|h] l]; cbn [x_code] in Hs.
    + destruct o as [t|]; injection Hs as <-.
      * eapply (Hgo (XFrame (Some t) (XSub t) :: st) (alter (xt_upd set_done) t (x_tasks s)) (x_trace s)); [done|by apply same_alter|by destruct s].
      * eapply (Hgo st _ _); [done|exact Hid|apply Hself].
    + destruct pr as [|m k| |es k|pr h k].
      * injection Hs as <-. eapply (Hgo (XFrame o (XCode l) :: st)); [done|exact Hid|apply Hself].
      * destruct (x_lives s o) eqn:Hlv; injection Hs as <-.
        -- eapply (Hgo (XFrame o (XCode (SRun k :: l)) :: st) (x_tasks s) (x_trace s ++ [m])); [done|exact Hid|by destruct s].
        -- exfalso. destruct o as [t|]; [|done]. cbn in Hlv. destruct (x_tasks s !! t) as [y|] eqn:Hy; [|done]. apply bool_decide_eq_false, dec_stable in Hlv.
           pose proof (d_done _ D _ _ Hy Hlv) as Hd. by rewrite (not_called _ _ _ _ _ _ _ _ _ _ Hr Hx Hst Hy) in Hd.
      * injection Hs as <-. exfalso. unfold x_throw in Ht. destruct (unwind _) as [ds [|]]; done.
      * destruct (pf_batches (length (x_workers s)) (length es)) as [bs|]; injection Hs as <-.
        -- split; [done|]. split; [cbn; by rewrite alter_length|]. destruct (infos_upd _ _ _ Hx) as (R & E1 & E2). rewrite Hst in E1.
           assert (infos (alter (xw_set_stack (XFrame o (XCode (SSubmit (x_next s) (subrange es <$> bs) None :: SRun k :: l)) :: st)) w (x_workers s)) ≡ₚ (x_next s, None) :: infos (x_workers s)) as E.
           { rewrite (E2 (xw_set_stack (XFrame o (XCode (SSubmit (x_next s) (subrange es <$> bs) None :: SRun k :: l)) :: st))), E1. done. }
           destruct D as [D1 D2 D3 D4 D5]. split; cbn [x_upd x_set_workers x_set_next x_workers x_dead x_next x_tasks].
           ++ rewrite E. cbn. apply NoDup_cons. split; [|done]. intros Hin. rewrite Forall_forall in D2. specialize (D2 _ Hin). cbn in D2. lia.
           ++ rewrite E. cbn. constructor; [lia|]. eapply Forall_impl; [exact D2|]. cbn. lia.
           ++ intros t y Hy. specialize (D3 _ _ Hy). lia.
           ++ intros sc o' t y Hin Hy Hsc. rewrite E in Hin. apply elem_of_cons in Hin as [Hin|Hin]; [|by eapply D4]. injection Hin as -> ->. specialize (D3 _ _ Hy). lia.
           ++ exact D5.
        -- eapply (Hgo (XFrame o (XCode ((SRun <$> es) ++ SRun k :: l)) :: st)); [|exact Hid|apply Hself]. cbn. unfold fr_info. cbn [xf_pc]. by rewrite elems_info.
      * injection Hs as <-. eapply (Hgo (XFrame o (XCode (SRun pr :: STry h :: SRun k :: l)) :: st)); [done|exact Hid|apply Hself].
    + destruct bs as [|b bs].
      * destruct par as [t|]; injection Hs as <-.
        -- eapply (Hgo (XFrame o (XCode (SWait sc t :: l)) :: st)); [done|exact Hid|apply Hself].
        -- split; [done|]. split; [cbn; by rewrite alter_length|]. destruct (infos_upd _ _ _ Hx) as (R & E1 & E2). rewrite Hst in E1.
           specialize (E2 (xw_set_stack (XFrame o (XCode l) :: st))). destruct D as [D1 D2 D3 D4 D5]. rewrite E1 in D1, D2. cbn in D1, D2. apply NoDup_cons in D1 as [_ D1]. apply Forall_cons in D2 as [_ D2].
           split; cbn [x_upd x_set_workers x_workers x_dead x_next x_tasks]; [by rewrite E2|by rewrite E2|done| |done].
           intros sc' o' t y Hin Hy Hsc. eapply D4; [|done|done]. rewrite E1. rewrite E2 in Hin. right. exact Hin.
      * injection Hs as <-. split; [done|]. split; [cbn; by rewrite !alter_length|].
        set (r := default (length (x_tasks s)) par) in *. set (ts1 := match par with Some p => alter (xt_upd (upd_ctr inc16)) p (x_tasks s) | None => x_tasks s end).
        destruct (infos_upd _ _ _ Hx) as (R & E1 & E2). rewrite Hst in E1.
        assert (infos (x_workers (x_upd (xw_set_stack (XFrame o (XCode (SSubmit sc bs (Some r) :: l)) :: st)) w (x_submit w sc b par s))) ≡ₚ (sc, Some r) :: code_info l ++ st_info st ++ R) as E.
        { cbn [x_upd x_submit x_set_workers x_workers x_set_tasks]. assert (alter (λ x0, xw_set_queue (xw_queue x0 ++ [length (x_tasks s)]) x0) w (x_workers s) !! w = Some (xw_set_queue (xw_queue x ++ [length (x_tasks s)]) x)) as Hx2 by (by rewrite list_lookup_alter, Hx).
          assert (alter (xw_set_stack (XFrame o (XCode (SSubmit sc bs (Some r) :: l)) :: st)) w (alter (λ x0, xw_set_queue (xw_queue x0 ++ [length (x_tasks s)]) x0) w (x_workers s)) =
            alter (λ x0, xw_set_stack (XFrame o (XCode (SSubmit sc bs (Some r) :: l)) :: st) (xw_set_queue (xw_queue x0 ++ [length (x_tasks s)]) x0)) w (x_workers s)) as -> by (by rewrite <- list_alter_compose).
          rewrite (E2 (λ x0, xw_set_stack (XFrame o (XCode (SSubmit sc bs (Some r) :: l)) :: st) (xw_set_queue (xw_queue x0 ++ [length (x_tasks s)]) x0))). cbn. by rewrite <- app_assoc. }
        assert (infos (x_workers s) ≡ₚ (sc, par) :: code_info l ++ st_info st ++ R) as E0 by (rewrite E1; cbn; by rewrite <- app_assoc).
        assert (∀ t y, ts1 !! t = Some y → ∃ x, x_tasks s !! t = Some x ∧ xt_scope y = xt_scope x ∧ t_parent (xt_task y) = t_parent (xt_task x) ∧ (t_done (xt_task x) = true → t_done (xt_task y) = true)) as Hts.
        { subst ts1. destruct par as [q|]; [by apply same_alter|exact Hid]. }
        assert (length ts1 = length (x_tasks s)) as Hlts by (subst ts1; destruct par; [apply alter_length|done]).
        assert (∀ t y, (ts1 ++ [XTask (Task par 1 false) sc b]) !! t = Some y → ts1 !! t = Some y ∨ t = length (x_tasks s) ∧ y = XTask (Task par 1 false) sc b) as Hnew.
        { intros t y Hy. apply lookup_app_Some in Hy as [Hy|[Hge Hy]]; [by left|right]. destruct (t - length ts1) as [|m] eqn:Em; [|by destruct m]. injection Hy as <-. split; [lia|done]. }
        destruct D as [D1 D2 D3 D4 D5]. rewrite E0 in D1, D2. cbn [fmap list_fmap app] in D1, D2. pose proof D1 as Dn. apply NoDup_cons in Dn as [Dn _]. pose proof D2 as Dl. apply Forall_cons in Dl as [Dl _]. cbn [fst] in Dn, Dl.
        split; rewrite ?E; cbn [x_upd x_set_workers x_set_tasks x_submit x_dead x_next x_tasks].
        -- exact D1.
        -- exact D2.
        -- intros t y [Hy|[-> ->]]%Hnew; [|done]. destruct (Hts _ _ Hy) as (z & Hz & -> & _). by eapply D3.
        -- intros sc' o' t y Hin Hy' Hsc. rewrite E in Hin. apply Hnew in Hy' as [Hy|[-> ->]].
           ++ destruct (Hts _ _ Hy) as (z & Hz & Es & Ep & _). rewrite Es in Hsc. apply elem_of_cons in Hin as [Hin|Hin].
              ** injection Hin as -> ->. specialize (D4 sc par t z ltac:(rewrite E0; left) Hz Hsc). destruct par as [q|]; [|done]. cbn in D4 |- *. by rewrite Ep.
              ** specialize (D4 sc' o' t z ltac:(rewrite E0; by right) Hz Hsc). destruct o' as [q|]; [|done]. cbn in D4 |- *. by rewrite Ep.
           ++ cbn in Hsc. subst sc'. apply elem_of_cons in Hin as [Hin|Hin].
              ** injection Hin as ->. cbn. subst r. destruct par as [q|]; [by right|by left].
              ** exfalso. apply Dn, elem_of_app. left. apply elem_of_list_fmap. by exists (sc, o').
        -- intros t y [Hy|[-> ->]]%Hnew Hin.
           ++ destruct (Hts _ _ Hy) as (z & Hz & Es & _ & Hd). rewrite Es in Hin. apply Hd. by eapply D5.
           ++ exfalso. apply Dn, elem_of_app. by right.
    + destruct (x_tasks s !! t) as [y|] eqn:Hy; [|done]. cbn [mbind option_bind] in Hs. destruct (bool_decide (t_ctr (xt_task y) = 0%N)) eqn:Hc.
      * injection Hs as <-. split; [done|]. split; [cbn; by rewrite alter_length|]. destruct (infos_upd _ _ _ Hx) as (R & E1 & E2). rewrite Hst in E1.
        specialize (E2 (xw_set_stack (XFrame o (XCode l) :: st))). cbn [xw_set_stack xw_stack st_info mbind list_bind fr_info xf_pc] in E2.
        assert (infos (x_workers s) ≡ₚ (sc, Some t) :: infos (alter (xw_set_stack (XFrame o (XCode l) :: st)) w (x_workers s))) as E0 by (rewrite E1, E2; done).
        assert (∀ u z, x_tasks s !! u = Some z → xt_scope z = sc → t_done (xt_task z) = true) as Hdn.
        { intros u z Hz Hsc. assert (belongs (Some t) u (xt_task z)) as Hb by (eapply (d_info _ D); [rewrite E0; left|done|done]).
          pose proof (step_of s sem sd w v x _ _ Hx Hst) as Hp. unfold frame_step in Hp. cbn [fr_of f_pc xf_pc comp_code f_task xf_task p_tasks tp_of] in Hp. rewrite list_lookup_fmap, Hy in Hp. cbn [fmap option_fmap option_map mbind option_bind] in Hp.
          rewrite Hc in Hp. eapply (C55_wait_means_done n (comp p PDone) (tp_of s sem sd) w (wk_of w x) o t (comp_code l) (fr_of <$> st) v _ _ Hfj Hr).
          - cbn. by rewrite fmap_length.
          - by apply stack_of.
          - cbn. by rewrite Hst.
          - exact Hp.
          - cbn. rewrite list_lookup_alter, list_lookup_imap, Hx. done.
          - done.
          - cbn. by rewrite list_lookup_fmap, Hz.
          - exact Hb. }
        destruct D as [D1 D2 D3 D4 D5]. rewrite E0 in D1, D2. split; cbn [x_upd x_set_workers x_set_dead x_workers x_dead x_next x_tasks].
        -- rewrite app_assoc, <- Permutation_cons_append. exact D1.
        -- rewrite app_assoc, <- Permutation_cons_append. exact D2.
        -- exact D3.
        -- intros sc' o' u z Hin Hz Hsc. eapply D4; [|done|done]. rewrite E0. by right.
        -- intros u z Hz [Hin|Hin]%elem_of_app; [by eapply D5|]. apply elem_of_list_singleton in Hin. by eapply Hdn.
      * destruct (x_get_task w v s) as [r|] eqn:Hg; [|done]. cbn [mbind option_bind] in Hs. by eapply Hget.
    + injection Hs as <-. eapply (Hgo (XFrame o (XCode l) :: st)); [done|exact Hid|apply Hself].
  - injection Hs as <-. eapply (Hgo (XFrame o (XCheck t) :: st) (alter (xt_upd (upd_ctr dec16)) t (x_tasks s)) (x_trace s)); [done|by apply same_alter|by destruct s].
  - destruct (x_tasks s !! t) as [y|] eqn:Hy; [|done]. cbn [mbind option_bind] in Hs. destruct (if bool_decide _ then _ else _) as [q|]; injection Hs as <-.
    + eapply (Hgo (XFrame o (XSub q) :: st)); [done|exact Hid|apply Hself].
    + eapply (Hgo st); [done|exact Hid|apply Hself].
Qed.

(** What was thrown and submitted stays so. *)
Lemma mono_step s w v s' : x_step w v s = Some s' → (x_threw s' = false → x_threw s = false) ∧ length (x_tasks s) ≤ length (x_tasks s').
Proof.
  intros Hs. unfold x_step in Hs. destruct (x_end s); [done|]. destruct (x_workers s !! w) as [x|] eqn:Hx; [|done]. cbn [mbind option_bind] in Hs.
  assert (∀ r, x_get_task w v s = Some r → match r.1 with Some u => x_execute w u r.2 | None => Some r.2 end = Some s' → (x_threw s' = false → x_threw s = false) ∧ length (x_tasks s) ≤ length (x_tasks s')) as Hget.
  { intros [[u|] s1] Hg Hr'; cbn [fst snd] in Hr'; pose proof (threw_get _ _ _ _ Hg) as (E0 & _ & _ & E3 & _); cbn [snd] in *.
    - apply exec_info in Hr' as (_ & _ & _ & F4 & F5 & _). by rewrite F4, F5, E0, E3.
    - injection Hr' as <-. by rewrite E0, E3. }
  destruct (xw_stack x) as [|[o [l|t|t]] st] eqn:Hst.
  - destruct w as [|w]; [done|]. destruct (x_get_task (S w) v s) as [r|] eqn:Hg; [|done]. cbn [mbind option_bind] in Hs. by eapply Hget.
  - destruct l as [|[pr|sc bs par|sc t|h] l]; cbn [x_code] in Hs.
    + destruct o as [t|]; injection Hs as <-; cbn; by rewrite ?alter_length.
    + destruct pr as [|m k| |es k|pr h k]; [by injection Hs as <-|by destruct (x_lives s o); injection Hs as <-| |by destruct (pf_batches _ _); injection Hs as <-|by injection Hs as <-].
      injection Hs as <-. unfold x_throw. by destruct (unwind _) as [ds [|]].
    + destruct bs as [|b bs]; [by destruct par; injection Hs as <-|]. injection Hs as <-. cbn. rewrite app_length. split; [done|]. destruct par; rewrite ?alter_length; lia.
    + destruct (x_tasks s !! t) as [y|] eqn:Hy; [|done]. cbn [mbind option_bind] in Hs. destruct (bool_decide _); [by injection Hs as <-|].
      destruct (x_get_task w v s) as [r|] eqn:Hg; [|done]. cbn [mbind option_bind] in Hs. by eapply Hget.
    + by injection Hs as <-.
  - injection Hs as <-. cbn. by rewrite alter_length.
  - destruct (x_tasks s !! t) as [y|] eqn:Hy; [|done]. cbn [mbind option_bind] in Hs. by destruct (if bool_decide _ then _ else _) as [q|]; injection Hs as <-.
Qed.
Lemma sinv_start p : 1 ≤ n → sinv p (x_start n p).
Proof.
  intros Hn. split; [done|cbn; rewrite replicate_length; lia| |].
  - assert (infos (x_workers (x_start n p)) = []) as E. { cbn. induction (n - 1) as [|m IH]; [done|]. exact IH. }
    split; rewrite ?E; cbn; [apply NoDup_nil_2|done|done|by intros ???? []%elem_of_nil|done].
  - exists 0%N, []. rewrite (tp_start p Hn). constructor.
Qed.
Lemma sinv_reach p s : 1 ≤ n → x_reach n p s → x_threw s = false → (N.of_nat (length (x_tasks s)) < 65536)%N → sinv p s.
Proof.
  intros Hn. induction 1 as [|s w v s' _ IH Hs]; intros Ht Hl; [by apply sinv_start|]. destruct (mono_step _ _ _ _ Hs) as [M1 M2].
  eapply sinv_step; [apply IH; [by apply M1|lia]|apply fj_comp; constructor|done|done|lia].
Qed.
End sim.
