(** C95. *)
From Verif Require Import Base Task ParallelFor PropParallelFor Stage ThreadPool ThreadPoolProofs ThreadPoolRun ThreadPoolJoin PropThreadPool PoolTrace PoolTraceProofs.
Local Open Scope nat_scope.

(** * Code that forks and joins waits for all its tasks *)

Lemma comp_fork_join c : ∀ own, fork_join own (comp c).
Proof.
  induction c as [|a k IH|cs ms k Hcs Hms IH] using code_ind'; intros own; [done|apply IH|]. cbn. apply fork_join_seq; [|apply IH].
  assert (∀ own q, fork_join own q → fork_join own (foldr seq_prog q (comp <$> ms))) as Hmains.
  { intros own' q Hq. clear -Hms Hq. induction Hms as [|m ms Hm _ IH]; [done|]. cbn. apply fork_join_seq; [apply Hm|exact IH]. }
  apply fork_join_submit; [|by apply Hmains|].
  - apply Forall_fmap. eapply Forall_impl; [exact Hcs|]. intros c Hc. apply Hc.
  - intros t. apply Hmains. split; [left|done].
Qed.
Lemma comp_joined c : joined [] (comp c).
Proof.
  induction c as [|a k IH|cs ms k Hcs Hms IH] using code_ind'; [done|apply IH|]. cbn. apply (joined_seq _ _ [] []); [|exact IH].
  apply (joined_submit (comp <$> cs)) with (o := None); [by apply Forall_fmap|]. intros o. clear -Hms.
  induction Hms as [|m ms Hm _ IHm]; [apply joined_wait|]. cbn. by apply (joined_seq _ _ [] _).
Qed.

(** * The number of tasks *)

(** The pieces that become tasks. *)
Fixpoint pieces (c : code) : nat :=
  match c with
  | CDone => 0
  | CAct _ k => pieces k
  | CFork cs ms k => length cs + sum_list (pieces <$> cs) + sum_list (pieces <$> ms) + pieces k
  end.

Fixpoint weight (p : prog) : nat :=
  match p with
  | PDone => 0
  | PSubmit c _ k => S (weight c + weight (k 0))
  | PWait _ k | PStop k | PAct _ k => weight k
  end.
Fixpoint uniform (p : prog) : Prop :=
  match p with
  | PDone => True
  | PSubmit c _ k => uniform c ∧ ∀ n, uniform (k n) ∧ weight (k n) = weight (k 0)
  | PWait _ k | PStop k | PAct _ k => uniform k
  end.

Lemma weight_seq p q : uniform p → uniform q → uniform (seq_prog p q) ∧ weight (seq_prog p q) = weight p + weight q.
Proof.
  intros Hp Hq. induction p as [|c _ o k IHk|r k IHk|k IHk|a k IHk]; cbn in *; [done| |by apply IHk..].
  destruct Hp as [Hc Hk]. split.
  - split; [done|]. intros n. destruct (Hk n) as [Hu Hw], (Hk 0) as [Hu0 _].
    destruct (IHk n Hu) as [? ->], (IHk 0 Hu0) as [_ ->]. split; [done|lia].
  - destruct (Hk 0) as [Hu0 _]. destruct (IHk 0 Hu0) as [_ ->]. lia.
Qed.
Lemma weight_submit bs k m : Forall uniform bs → (∀ o, uniform (k o) ∧ weight (k o) = m) →
  ∀ o, uniform (submit_all o bs k) ∧ weight (submit_all o bs k) = length bs + sum_list (weight <$> bs) + m.
Proof.
  intros Hb Hk. induction Hb as [|b bs Hb _ IH]; intros o; [apply Hk|]. cbn. split.
  - split; [done|]. intros n. destruct (IH (Some (default n o))) as [? ->], (IH (Some (default 0 o))) as [_ ->]. done.
  - destruct (IH (Some (default 0 o))) as [_ ->]. lia.
Qed.
Lemma weight_comp c : uniform (comp c) ∧ weight (comp c) = pieces c.
Proof.
  induction c as [|a k IH|cs ms k Hcs Hms [IH1 IH2]] using code_ind'; [done|apply IH|]. cbn.
  assert (Forall uniform (comp <$> cs) ∧ sum_list (weight <$> (comp <$> cs)) = sum_list (pieces <$> cs)) as [Hu Hs].
  { clear -Hcs. induction Hcs as [|c cs [? Hc] _ [? IH]]; [split; [constructor|done]|]. cbn. rewrite Hc, IH. split; [by constructor|done]. }
  assert (∀ q, uniform q → uniform (foldr seq_prog q (comp <$> ms)) ∧
    weight (foldr seq_prog q (comp <$> ms)) = sum_list (pieces <$> ms) + weight q) as Hm.
  { intros q Hq. clear -Hms Hq. induction Hms as [|m ms [Hm1 Hm2] _ [IH1 IH2]]; [done|]. cbn.
    destruct (weight_seq _ _ Hm1 IH1) as [? ->]. split; [done|]. rewrite Hm2, IH2. lia. }
  destruct (weight_submit (comp <$> cs) (λ p, foldr seq_prog (wait_parent p) (comp <$> ms)) (sum_list (pieces <$> ms)) Hu) with (o := @None nat) as [Hb1 Hb2].
  { intros o. destruct (Hm (wait_parent o)) as [? ->]; [by destruct o|]. split; [done|]. destruct o; cbn; lia. }
  destruct (weight_seq _ _ Hb1 IH1) as [? E]. split; [done|]. unfold batch_call. rewrite E, Hb2, IH2, fmap_length, Hs. lia.
Qed.

Definition wtf (fr : frame) : nat := match f_pc fr with FRun p => weight p | _ => 0 end.
Definition wtq (ps : list prog) (u : nat) : nat := match ps !! u with Some c => weight c | None => 0 end.
Definition fine (fr : frame) : Prop := match f_pc fr with FRun p => uniform p | _ => True end.
(** The tasks there are and the tasks still to come. *)
Record budget (m : nat) (x : flat) : Prop := {
  b_progs : Forall uniform (fl_progs x);
  b_frames : Forall fine (fl_f x);
  b_sum : length (fl_tasks x) + cnt (wtq (fl_progs x)) (fl_q x) + cnt wtf (fl_f x) = m }.
Lemma budget_step m l x y : fstep l x y → ginv x → budget m x → budget m y.
Proof.
  intros Hs G [B1 B2 B3].
  destruct Hs as [ts ps st q f o c p k f0 q' f' Hf Hq Hf'|ts ps st q f v c q' f' Hq Hc Hf'
    |ts ps st q f v f0 f' Hf Hf'|ts ps st q f f' Hf|ts ps st q f o t k f0 f' x Hf Hf' Hx Hz|ts ps st q f o k f0 f' Hf Hf'|ts ps st q f o a k f0 f' Hf Hf'
    |ts ps st q f o t f0 f' Hf Hf'|ts ps st q f o t f0 f' x p Hf Hf' Hx Hz Hp|ts ps st q f o t f' x Hf Hx Hz]; cbn in B1, B2, B3;
    try rewrite (cnt_perm _ _ _ Hf) in B3; try rewrite Hf in B2; cbn in B2, B3; try (apply Forall_cons in B2 as [Bf B2]); cbn in *.
  2: { rewrite (cnt_perm _ _ _ Hq) in B3. cbn in B3. split; cbn; [done| |].
       - rewrite Hf'. constructor; [|done]. cbn. by eapply (Forall_lookup_1 _ _ _ _ B1 Hc).
       - rewrite (cnt_perm _ _ _ Hf'). cbn. unfold wtq in B3 at 1. rewrite Hc in B3. cbn in *. lia. }
  1: { destruct Bf as [Bc Bk]. destruct (Bk (length ts)) as [Bu Bw]. pose proof (g_len _ G) as Hl. cbn in Hl. split; cbn.
       - apply Forall_app. split; [done|]. by constructor.
       - rewrite Hf'. by constructor.
       - rewrite (cnt_perm _ _ _ Hf'), (cnt_perm _ _ _ Hq), app_length, count_in_length. cbn.
         unfold wtq at 1. rewrite lookup_app_r, Hl, Nat.sub_diag by lia. cbn.
         rewrite (cnt_ext _ (wtq ps)).
         + rewrite Bw. lia.
         + intros u Hu. apply (ginv_q_lt _ u G) in Hu. cbn in Hu. unfold wtq. by rewrite lookup_app_l by lia. }
  all: split; cbn; [done|try rewrite Hf'; try (constructor; [done|]); done|]; rewrite ?(cnt_perm _ _ _ Hf'), ?alter_length; cbn in *; lia.
Qed.

Lemma reach_budget n main s : uniform main → pool_reach n main s → budget (weight main) (flat_of (core_of s)).
Proof.
  intros Hu. induction 1 as [|s w v s' Hr IH Hst].
  - rewrite flat_start. split; cbn; [constructor|by constructor|lia].
  - apply pool_step_core in Hst as [E|[l Hc]]; [by rewrite E|].
    eapply budget_step; [by eapply cstep_flat|by eapply reach_ginv|done].
Qed.

(** * Runs *)

Lemma run_reach n main s tr s' : pool_reach n main s → pool_run s tr s' → pool_reach n main s'.
Proof. intros Hr H. induction H as [|s w v s1 tr s' Hst _ IH]; [done|]. apply IH. by econstructor. Qed.
Lemma run_app s t s1 t' s' : pool_run s t s1 → pool_run s1 t' s' → pool_run s (t ++ t') s'.
Proof. intros H H'. induction H as [|s w v s1 tr s2 Hst _ IH]; [done|]. rewrite <-app_assoc. econstructor; [exact Hst|by apply IH]. Qed.
Lemma run_psteps s s' : psteps s s' → ∃ tr, pool_run s tr s'.
Proof.
  induction 1 as [s|s s1 s' (w & v & Hst) _ (tr & IH)]; [exists []; constructor|]. eexists. by econstructor.
Qed.

(** The main program has returned. *)
Definition returned (s : tpool) : Prop := ∀ p, Frame None (FRun p) ∉ concat (calls s).

Lemma run_ends n main tr s : fork_join [] main → joined [] main → uniform main → (N.of_nat (weight main) < 65536)%N →
  pool_run (pool_start n main) tr s → returned s → ends [] main tr.
Proof.
  intros Hfj Hjo Hu Hw Hr Hret.
  assert (pool_reach n main s) as Hrs by (eapply run_reach; [apply pr_init|done]).
  pose proof (b_sum _ _ (reach_budget n main s Hu Hrs)) as Hb. cbn in Hb.
  destruct (reach_jinv n main (pool_start n main) Hfj Hjo (pr_init _ _)) as (ow & I & J); [by cbn|].
  destruct (run_future _ _ _ Hr ow I J) as [_ (T & [_ F2] & [HS _])].
  - change ctr_mod with 65536%N. lia.
  - intros [p Hp]. by apply (Hret p).
  - rewrite flat_start in F2, HS. specialize (HS ltac:(exists main; left)). rewrite <-HS. apply F2. left.
Qed.

(** * C95 *)

(** Whatever the number of workers and whoever executes which task when: when the main program has returned, the actions
    have happened in an order that the code allows. *)
Theorem C95_order n c tr s : (N.of_nat (pieces c) < 65536)%N → pool_run (pool_start n (comp c)) tr s → returned s → order c tr.
Proof.
  intros Hp Hr Hret. destruct (weight_comp c) as [Hu Hw]. apply orderly_ends; [apply orderly_all|].
  eapply run_ends; [apply comp_fork_join|apply comp_joined|done|by rewrite Hw|done|done].
Qed.

(** At every moment the actions so far are the beginning of such an order. *)
Theorem C95_so_far n c tr s : (N.of_nat (pieces c) < 65536)%N → pool_run (pool_start n (comp c)) tr s → ∃ tr', order c (tr ++ tr').
Proof.
  intros Hp Hr. destruct (C56_can_finish n (comp c) s) as (s' & Hps & Hc); [apply comp_fork_join|eapply run_reach; [apply pr_init|done]|].
  apply run_psteps in Hps as [tr' Hr']. exists tr'. eapply (C95_order n c _ s'); [done|by eapply run_app|].
  intros p. rewrite Hc. apply not_elem_of_nil.
Qed.

(** All the actions of the code. *)
Fixpoint actions (c : code) : list nat :=
  match c with
  | CDone => []
  | CAct a k => a :: actions k
  | CFork cs ms k => concat (actions <$> cs) ++ concat (actions <$> ms) ++ actions k
  end.
Lemma order_actions c : ∀ tr, order c tr → tr ≡ₚ actions c.
Proof.
  induction c as [|a k IH|cs ms k Hcs Hms IH] using code_ind'; intros tr H; inversion H; subst; cbn.
  - done.
  - constructor. by apply IH.
  - match goal with Hi : interleave _ _ |- _ => apply interleave_perm in Hi as -> end. cbn.
    rewrite (IH _ ltac:(eassumption)).
    assert (∀ (l : list code) (ts : list (list nat)), Forall (λ c, ∀ tr, order c tr → tr ≡ₚ actions c) l → Forall2 order l ts →
      concat ts ≡ₚ concat (actions <$> l)) as Hl.
    { clear. intros l ts Hl H. revert Hl. induction H as [|c t l ts Hc _ IHl]; intros Hl; [done|]. apply Forall_cons in Hl as [Hc' Hl]. cbn.
      by rewrite (Hc' t Hc), (IHl Hl). }
    rewrite (Hl _ _ Hcs ltac:(eassumption)), (Hl _ _ Hms ltac:(eassumption)). solve_Permutation.
Qed.
(** Every action happens exactly as often as it is written. *)
Theorem C95_each_once n c tr s : (N.of_nat (pieces c) < 65536)%N → pool_run (pool_start n (comp c)) tr s → returned s → tr ≡ₚ actions c.
Proof. intros Hp Hr Hret. by eapply order_actions, C95_order. Qed.

(** ** parallel_for and stages *)

Definition calls_of (l : list nat) : code := foldr CAct CDone l.
Lemma order_calls l tr : order (calls_of l) tr → tr = l.
Proof. revert tr. induction l as [|a l IH]; intros tr H; inversion H; subst; [done|]. f_equal. by apply IH. Qed.
Lemma orders_calls ls ts : Forall2 order (calls_of <$> ls) ts → ts = ls.
Proof.
  rewrite Forall2_fmap_l. induction 1 as [|l t ls ts H _ IH]; [done|]. f_equal; [by apply order_calls|done].
Qed.
Lemma batch_ends cs ms t : ends [] (batch_call (comp <$> cs) (comp <$> ms)) t →
  ∃ tcs tms, Forall2 order cs tcs ∧ Forall2 order ms tms ∧ interleave (concat tms :: tcs) t.
Proof.
  intros (e & H & _). apply orderly_batch in H as (tcs & tms & u & e' & z & _ & _ & H1 & H2 & Hi & Hm).
  - apply merge_empty in Hm as ->. by exists tcs, tms.
  - apply Forall_forall. intros c _. apply orderly_all.
  - apply Forall_forall. intros c _. apply orderly_all.
Qed.
Lemma interleave_drop {A} (ls : list (list A)) tr : interleave ([] :: ls) tr → interleave ls tr.
Proof.
  intros H. remember ([] :: ls) as l eqn:E. revert ls E. induction H as [l Hl|l i x r tr Hi _ IH]; intros ls ->.
  - constructor. by apply Forall_cons in Hl as [_ Hl].
  - destruct i as [|i]; [done|]. cbn in Hi. eapply interleave_cons; [exact Hi|]. by apply IH.
Qed.

(** A call of parallel_for hands the elements to the function in one of the orders of [pf_exec] (C35, C36). *)
Theorem C95_parallel_for n w (range : list nat) bs tr s : pf_batches w (length range) = Some bs → (N.of_nat (length bs) < 65536)%N →
  pool_run (pool_start n (pf_call ((λ b, comp (calls_of (subrange range b))) <$> bs))) tr s → returned s → pf_exec w range tr.
Proof.
  intros Hbs Hlen Hr Hret. unfold pf_exec. rewrite Hbs. set (ls := subrange range <$> bs) in *.
  assert ((λ b, comp (calls_of (subrange range b))) <$> bs = comp <$> (calls_of <$> ls)) as E.
  { unfold ls. by rewrite <-!list_fmap_compose. }
  rewrite E in Hr. change (pf_call (comp <$> (calls_of <$> ls))) with (batch_call (comp <$> (calls_of <$> ls)) (comp <$> [])) in Hr.
  assert (∀ l, pieces (calls_of l) = 0) as Hpc by (intros l; by induction l).
  assert (Forall uniform (comp <$> (calls_of <$> ls))) as Hu.
  { apply Forall_fmap, Forall_forall. intros c _. apply weight_comp. }
  destruct (weight_submit _ wait_parent 0 Hu) with (o := @None nat) as [Hu1 Hw1]; [by intros []|].
  apply run_ends in Hr; [|apply C56_parallel_for|apply C55_parallel_for_waits|exact Hu1| |done].
  - apply (batch_ends _ []) in Hr as (tcs & tms & H1 & H2 & Hi). apply orders_calls in H1 as ->. inversion H2; subst. by apply interleave_drop.
  - apply Forall_fmap, Forall_forall. intros c _. apply comp_fork_join.
  - apply Forall_fmap, Forall_forall. intros c _. apply comp_joined.
  - unfold batch_call. cbn [foldr fmap list_fmap]. change (λ p, wait_parent p) with wait_parent. rewrite Hw1, !fmap_length.
    assert (sum_list (weight <$> (comp <$> (calls_of <$> ls))) = 0) as ->.
    { clear -Hpc. induction ls as [|l ls IH]; [done|]. cbn in *. destruct (weight_comp (calls_of l)) as [_ ->]. by rewrite Hpc, IH. }
    unfold ls. rewrite fmap_length. lia.
Qed.

(** A stage runs its systems in one of the orders of [stage_trace] (C33, C60, C64). *)
Definition system (a : nat) : prog := PAct a PDone.
Theorem C95_stage n (e : stage_exec nat) tr s : (N.of_nat (length (concat (se_batches e))) < 65536)%N →
  pool_run (pool_start n (stage_run ((λ b : list nat, system <$> b) <$> se_batches e) (system <$> se_main e))) tr s → returned s → stage_trace e tr.
Proof.
  destruct e as [batches main]. cbn [se_batches se_main]. intros Hlen Hr Hret.
  set (code := foldr (λ b k, CFork ((λ a, CAct a CDone) <$> b) ((λ a, CAct a CDone) <$> main) k) CDone batches).
  assert (stage_run ((λ b : list nat, system <$> b) <$> batches) (system <$> main) = comp code) as E.
  { unfold code. clear. induction batches as [|b bs IH]; [done|]. cbn [stage_run foldr fmap list_fmap comp] in *. unfold stage_run in IH.
    rewrite IH. by rewrite <-!list_fmap_compose. }
  rewrite E in Hr. apply C95_order in Hr; [|clear Hr E|done].
  2: { assert (pieces code = length (concat batches)) as ->; [|done]. unfold code. clear. induction batches as [|b bs IH]; [done|].
       cbn [foldr pieces concat]. rewrite IH, app_length, fmap_length.
       assert (∀ l : list nat, sum_list (pieces <$> ((λ a, CAct a CDone) <$> l)) = 0) as Hz by (intros l; by induction l). rewrite !Hz. lia. }
  unfold stage_trace. cbn. clear E Hret Hlen. subst code.
  assert (∀ (l : list nat) ts, Forall2 order ((λ a, CAct a CDone) <$> l) ts → ts = (λ a, [a]) <$> l) as Hone.
  { clear. intros l ts. rewrite Forall2_fmap_l. induction 1 as [|a t l ts H _ IH]; [done|]. cbn. f_equal; [|done].
    inversion H as [|? ? ? H'|]; subst. by inversion H'. }
  revert tr Hr. induction batches as [|b bs IH]; intros tr Hr; inversion Hr as [| |? ? ? tcs tms t t' H1 H2 Hi H3]; subst; [constructor|].
  apply Hone in H1 as ->. apply Hone in H2 as ->. constructor; [|by apply IH]. unfold batch_trace.
  assert (concat ((λ a, [a]) <$> main) = main) as <-; [|done]. clear. induction main as [|a l IH]; [done|]. cbn. by rewrite IH.
Qed.

(** * Examples *)

Fixpoint prun_acts (s : tpool) (l : list (nat * option nat)) : option (list nat * tpool) :=
  match l with
  | [] => Some ([], s)
  | (w, v) :: l => s' ← pool_step s w v; r ← prun_acts s' l; Some (option_list (act_of s w) ++ r.1, r.2)
  end.
Lemma prun_acts_run l : ∀ s r, prun_acts s l = Some r → pool_run s r.1 r.2.
Proof.
  induction l as [|[w v] l IH]; cbn; intros s r; [intros [= <-]; constructor|].
  destruct (pool_step s w v) as [s'|] eqn:E; [|done]. cbn. destruct (prun_acts s' l) as [r'|] eqn:E'; [|done]. cbn. intros [= <-]. cbn.
  econstructor; [exact E|by apply IH].
Qed.

(** A stage with a main thread system 9 and two systems, one of which runs a parallel_for, then a second batch. *)
Definition ex_code : code :=
  CFork [CAct 1 (CFork [calls_of [2; 3]; calls_of [4]] [] (CAct 5 CDone)); CAct 6 CDone] [CAct 9 CDone] (CFork [CAct 7 CDone] [CAct 9 CDone] CDone).
(** With two workers: the main thread does everything, or two threads take turns. *)
Definition ex_out (l : list (nat * option nat)) : option (list nat * list frame) :=
  (λ r, (r.1, concat (calls r.2))) <$> prun_acts (pool_start 2 (comp ex_code)) l.
Lemma ex_run l tr : ex_out l = Some (tr, []) → ∃ s, pool_run (pool_start 2 (comp ex_code)) tr s ∧ returned s.
Proof.
  unfold ex_out. destruct (prun_acts _ _) as [r|] eqn:E; [|done]. cbn. intros [= <- Hc]. exists r.2.
  split; [by apply (prun_acts_run l)|]. intros p. rewrite Hc. apply not_elem_of_nil.
Qed.
Example C95_example :
  (N.of_nat (pieces ex_code) < 65536)%N ∧ pieces ex_code = 5 ∧
  (∃ s, pool_run (pool_start 2 (comp ex_code)) [9; 6; 1; 4; 2; 3; 5; 9; 7] s ∧ returned s) ∧
  (∃ s, pool_run (pool_start 2 (comp ex_code)) [9; 1; 6; 4; 2; 3; 5; 9; 7] s ∧ returned s).
Proof.
  split; [done|]. split; [done|]. split.
  - apply (ex_run (replicate 42 (0, None))). vm_compute. reflexivity.
  - apply (ex_run (concat (replicate 25 [(1, Some 0); (0, Some 1)]))). vm_compute. reflexivity.
Qed.

(** Orders that the code does not allow: an action of a fork after what is written behind it, and an action twice. *)
Example C95_example_excluded : ¬ order (CFork [CAct 1 CDone] [] (CAct 2 CDone)) [2; 1] ∧ ¬ ∃ tr, order ex_code (7 :: tr).
Proof.
  split.
  - intros H. inversion H as [| |? ? ? tcs tms t t' H1 H2 Hi H3 E]; subst. inversion H3 as [|? ? ? H4|]; subst. inversion H4; subst.
    match goal with E : t ++ [2] = _ |- _ => apply (f_equal last) in E; by rewrite last_snoc in E end.
  - intros [tr H]. inversion H as [| |? ? ? tcs tms t t' H1 H2 Hi H3 E]; subst.
    apply interleave_perm in Hi. assert (concat (concat tms :: tcs) ≡ₚ [9; 1; 2; 3; 4; 5; 6]) as Hp.
    { cbn. assert (concat tms ≡ₚ [9]) as ->.
      { assert (concat tms ++ [] ≡ₚ [9]) as Hx; [|by rewrite app_nil_r in Hx].
        apply (order_actions (CFork [] [CAct 9 CDone] CDone)). apply (order_fork _ _ _ [] tms); [constructor|done|apply interleave_one|constructor]. }
      apply (Permutation_app_head [9]). inversion H1 as [|? t1 ? tr1 Ha Hb]; subst. inversion Hb as [|? t2 ? tr2 Hc Hd]; subst. inversion Hd; subst. cbn.
      apply order_actions in Ha as ->. apply order_actions in Hc as ->. reflexivity. }
    rewrite Hp in Hi. destruct t as [|x t]; [by apply Permutation_nil_l in Hi|]. match goal with E : _ ++ t' = _ |- _ => cbn in E; injection E as -> _ end.
    assert (7 ∈ [9; 1; 2; 3; 4; 5; 6]) as Hin by (rewrite <-Hi; left). by rewrite !elem_of_cons, elem_of_nil in Hin; repeat destruct Hin as [Hin|Hin].
Qed.

(** The hypotheses of the theorems about parallel_for and stages. *)
Example C95_example_parallel_for : ∃ bs, pf_batches 2 5 = Some bs ∧ (N.of_nat (length bs) < 65536)%N.
Proof. eexists. split; [vm_compute; reflexivity|done]. Qed.
Example C95_example_stage : (N.of_nat (length (concat (se_batches (StageExec [[1; 2]; [3]] [9])))) < 65536)%N.
Proof. done. Qed.

Print Assumptions C95_order.
Print Assumptions C95_so_far.
Print Assumptions C95_each_once.
Print Assumptions C95_parallel_for.
Print Assumptions C95_stage.
