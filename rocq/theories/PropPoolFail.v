(** C87, C88: constructors of thread pools that fail; the ids of workers. *)
From Verif Require Import Base PoolContext PropPoolContext PoolFail.
Ltac Zify.zify_post_hook ::= Z.div_mod_to_equations.

(** No pool can be used from now on: every construction throws, get() gives a destroyed object, so that parallel_for and the execution of
    a batch of systems are undefined. *)
Definition unusable (hw : nat) (st : pctx) : Prop :=
  (∀ p u n, ¬ exists_pool st p u n) ∧
  ∀ t, (∀ n f, 0 < n → (fstep hw t (PConstruct n) f st).2 = PThrow) ∧
    (∃ p u n, px_get hw t st = (st, (POk, p)) ∧ px_pools st !! p = Some (PoolObj u n false)) ∧
    (∀ len, (pstep hw t (PParallelFor len) st).2 = PUB) ∧
    (∀ len, 0 < len → (pstep hw t (PBatch len) st).2 = PUB).

(** _instance is the address of a destroyed pool, and no pool exists. *)
Definition dangles (st : pctx) : Prop :=
  ∃ p u n, px_instance st = Some p ∧ px_pools st !! p = Some (PoolObj u n false) ∧ ∀ q u n, ¬ exists_pool st q u n.

Lemma dangles_unusable hw st : dangles st → unusable hw st.
Proof.
  intros (p & u & n & Hi & Hp & Hno). split; [done|]. intros t. split_and!.
  - intros m f Hm. unfold fstep. destruct f as [f|]; cbn [pstep]; unfold px_construct_fail, px_construct; (rewrite decide_False by lia); rewrite Hi; [by destruct f|done].
  - exists p, u, n. unfold px_get. by rewrite Hi.
  - intros len. cbn [pstep]. unfold px_parallel_for, px_get. rewrite Hi. cbn [fst snd]. by rewrite Hp.
  - intros len Hl. cbn [pstep]. unfold px_batch, px_get. rewrite Hi. rewrite decide_False by lia. by rewrite Hp.
Qed.

Lemma dangles_step hw st t c f st' o : dangles st → fstep hw t c f st = (st', o) → o ≠ PUB → st' = st.
Proof.
  intros (p & u & n & Hi & Hp & Hno) E Ho. assert (∀ q, pstep hw t (PDestroy q) st = (st, PUB)) as Hd.
  { intros q. cbn [pstep]. unfold px_destroy. destruct (px_pools st !! q) as [[v m b]|] eqn:Eq; [|done]. destruct b; [by destruct (Hno q v m)|done]. }
  assert (∀ m, px_construct t m st = (st, if decide (m = 0) then PUB else PThrow)) as Hc by (intros m; unfold px_construct; case_decide; [done|by rewrite Hi]).
  assert (px_get hw t st = (st, (POk, p))) as Hg by (unfold px_get; by rewrite Hi).
  unfold fstep in E. destruct c as [m|q| | |len|len].
  - destruct f as [f|]; cbn [pstep] in E; [|rewrite Hc in E; by simplify_eq]. unfold px_construct_fail in E. rewrite Hi in E. case_decide; [|destruct f]; by simplify_eq.
  - rewrite Hd in E. destruct f; by simplify_eq.
  - destruct f as [f|]; [unfold px_get_fail in E; rewrite Hi in E|cbn [pstep] in E]; rewrite Hg in E; by simplify_eq.
  - cbn [pstep] in E. destruct f; by simplify_eq.
  - assert (pstep hw t (PParallelFor len) st = (st', o)) as E' by (by destruct f). cbn [pstep] in E'. unfold px_parallel_for in E'. rewrite Hg, Hp in E'. cbn in E'. by simplify_eq.
  - assert (pstep hw t (PBatch len) st = (st', o)) as E' by (by destruct f). cbn [pstep] in E'. unfold px_batch in E'. rewrite Hg, Hp in E'. cbn in E'. case_decide; by simplify_eq.
Qed.

Lemma dangles_runs hw st st' : dangles st → fruns hw st st' → st' = st.
Proof.
  intros Hd. induction 1 as [|st st1 t c f st2 o _ IH _ E Ho _]; [done|]. rewrite IH in E by done. by eapply dangles_step.
Qed.

(** When a pool exists, or the allocation of the vector fails, an exception leaves everything as it was; every other
    failure either terminates the program (a thread other than the first cannot be started) or leaves no pool that
    can ever be used, whatever is called afterwards. *)
Theorem C87_exact_partial hw st t n f : preach hw st → running st t → 0 < n → pf_ok n f →
  let '(st', o) := fstep hw t (PConstruct n) (Some f) st in
  ((∃ p u m, exists_pool st p u m) ∨ f = FReserve → o = PThrow ∧ st' = st) ∧
  ((∀ p u m, ¬ exists_pool st p u m) → f ≠ FReserve →
    ((∃ i, f = FStart i ∧ 2 ≤ i) → o = PTerminate) ∧
    ((∀ i, f = FStart i → i < 2) → o = PThrow ∧ ∀ st'', fruns hw st' st'' → unusable hw st'')).
Proof.
  intros Hi%preach_inv Ht Hn Hf. cbn [fstep]. unfold px_construct_fail. rewrite decide_False by lia.
  destruct (decide (px_instance st = None)) as [Ei|Ei].
  2:{ destruct (px_instance st) as [p|] eqn:Ep; [|done]. destruct (pi_live _ Hi p Ep) as (u & m & Hp).
      destruct f; (split; [done|]; intros Hno; by destruct (Hno p u m)). }
  rewrite Ei. assert (∀ p u m, ¬ exists_pool st p u m) as Hno by (intros p u m Hp%(pi_inst _ Hi); congruence).
  assert (∀ cur st'', fruns hw (PCtx (Some (length (px_pools st))) (px_pools st ++ [PoolObj t n false]) (px_static st) cur) st'' → unusable hw st'') as Hd.
  { intros cur st'' Hr. assert (dangles (PCtx (Some (length (px_pools st))) (px_pools st ++ [PoolObj t n false]) (px_static st) cur)) as Hd.
    { exists (length (px_pools st)), t, n. split; [done|]. cbn [px_pools]. split; [by apply list_lookup_middle|]. intros q u m Hq. unfold exists_pool in Hq. cbn [px_pools] in Hq.
      apply lookup_app_Some in Hq as [Hq|[_ Hq]]; [by destruct (Hno q u m)|]. apply list_lookup_singleton_Some in Hq as [_ ?]. done. }
    rewrite (dangles_runs _ _ _ Hd Hr). by apply dangles_unusable. }
  assert ((∃ p u m, exists_pool st p u m) → False) as Hno' by (intros (p & u & m & Hp); by destruct (Hno p u m)).
  destruct f as [|[|i]|[|[|i]]]; (split; [intros [Hx|Hx]; [by destruct (Hno' Hx)|done]|]; intros _ Hr; split; [intros (j & Hj & Hj2)|intros Hs]; simplify_eq; eauto; try lia).
  specialize (Hs _ eq_refl). lia.
Qed.

(** The same in the local static of get(). *)
Theorem C87_get_refuted hw st t f : preach hw st → running st t → 0 < hw → pf_ok hw f → (∀ p u m, ¬ exists_pool st p u m) → px_static st = None →
  f ≠ FReserve → (∀ i, f = FStart i → i < 2) →
  ∃ st', fstep hw t PGet (Some f) st = (st', PThrow) ∧ ∀ st'', fruns hw st' st'' → unusable hw st''.
Proof.
  intros Hr Ht Hn Hf Hno Hs Hf1 Hf2. pose proof (C87_exact_partial hw st t hw f Hr Ht Hn Hf) as H.
  assert (px_instance st = None) as Ei. { destruct (px_instance st) as [p|] eqn:Ep; [|done]. apply preach_inv in Hr as Hi. destruct (pi_live _ Hi p Ep) as (u & m & Hp). by destruct (Hno p u m). }
  cbn [fstep] in *. unfold px_get_fail. rewrite Ei, Hs. destruct (px_construct_fail t hw f st) as [st' o]. destruct H as [_ H]. destruct (H Hno Hf1) as [_ H2]. destruct (H2 Hf2) as [-> H3]. by exists st'.
Qed.

(** An example: one failed start of a thread; then no pool of any size, for any thread, ever. *)
Theorem C87_refuted hw n : 2 ≤ n →
  let st := (fstep hw (own 0) (PConstruct n) (Some (FStart 1)) pctx_init).1 in
  (fstep hw (own 0) (PConstruct n) (Some (FStart 1)) pctx_init).2 = PThrow ∧
  (pstep hw (own 0) (PConstruct n) pctx_init).2 = POk ∧ (pstep hw (own 0) (PConstruct n) st).2 = PThrow ∧
  (pstep hw (own 0) (PParallelFor 1) st).2 = PUB ∧ ∀ st'', fruns hw st st'' → unusable hw st''.
Proof.
  intros Hn. pose proof (C87_exact_partial hw pctx_init (own 0) n (FStart 1) (PReach0 hw) I ltac:(lia) ltac:(cbn; lia)) as H.
  assert (∀ p u m, ¬ exists_pool pctx_init p u m) as Hno by (intros p u m Hp; unfold exists_pool in Hp; cbn in Hp; by rewrite lookup_nil in Hp).
  destruct (fstep hw (own 0) (PConstruct n) (Some (FStart 1)) pctx_init) as [st' o]. destruct H as [_ H]. destruct (H Hno ltac:(done)) as [_ H2].
  destruct H2 as [-> H3]; [intros i [= <-]; lia|]. cbn [fst snd]. pose proof (H3 st' (FRuns0 _ _)) as [_ Hu]. destruct (Hu (own 0)) as (Hc & _ & Hp & _).
  split; [done|]. split; [cbn [pstep]; unfold px_construct; by rewrite decide_False by lia|]. split; [apply (Hc n None); lia|]. split; [apply Hp|done].
Qed.

(** C88: with at most 65536 workers, each one is found under its id; with more, worker 65536 has the id of the main worker. *)
Lemma worker_at n i : 0 < n → i < n → pool_workers n !! i = Some (as_u16 i).
Proof.
  intros Hn Hi. unfold pool_workers. destruct i as [|i]; [done|]. change ((as_u16 <$> seq 1 (n - 1)) !! i = Some (as_u16 (S i))). rewrite list_lookup_fmap, lookup_seq_lt by lia. done.
Qed.
Lemma workers_length n : 0 < n → length (pool_workers n) = n.
Proof. intros Hn. unfold pool_workers. cbn [length]. rewrite fmap_length, seq_length. lia. Qed.
Theorem C88_ids_partial n i : 0 < n → (N.of_nat n ≤ 65536)%N → i < n → ∃ id, pool_workers n !! i = Some id ∧ worker_by_id (pool_workers n) id = inl i.
Proof.
  intros Hn Hb Hi. exists (as_u16 i). split; [by apply worker_at|]. unfold worker_by_id, as_u16. rewrite N.mod_small by lia. rewrite Nat2N.id, worker_at by done. done.
Qed.
Theorem C88_out_of_range n id : 0 < n → worker_by_id (pool_workers n) id = inr PTerminate ↔ (N.of_nat n ≤ id)%N.
Proof.
  intros Hn. unfold worker_by_id. destruct (pool_workers n !! N.to_nat id) as [x|] eqn:E.
  - apply lookup_lt_Some in E. rewrite workers_length in E by done. split; [done|lia].
  - apply lookup_ge_None in E. rewrite workers_length in E by done. split; [lia|done].
Qed.
(** The worker to steal from: any of the background workers, never the main worker, none when there is only the main worker. *)
Theorem C88_random n i : 0 < n → (∃ d, random_worker (pool_workers n) d = Some i) ↔ 1 ≤ i < n.
Proof.
  intros Hn. unfold random_worker. rewrite workers_length by done. case_decide as H; [split; [by intros [? ?]|lia]|]. split.
  - intros [d [= <-]]. pose proof (Nat.mod_upper_bound d (n - 1) ltac:(lia)). lia.
  - intros Hi. exists (i - 1). rewrite Nat.mod_small by lia. f_equal. lia.
Qed.
Theorem C88_refuted n : (65536 < N.of_nat n)%N → ∃ i, N.of_nat i = 65536%N ∧ i < n ∧ ∃ id, pool_workers n !! i = Some id ∧ worker_by_id (pool_workers n) id = inl 0.
Proof.
  intros Hn. exists (N.to_nat 65536). split; [by rewrite N2Nat.id|]. split; [lia|]. exists 0%N. split; [rewrite worker_at by lia; unfold as_u16; by rewrite N2Nat.id|].
  unfold worker_by_id. change (N.to_nat 0) with 0. by rewrite worker_at by lia.
Qed.

(** Examples of what the theorems assume: a pool exists; no pool exists, after one was destroyed. *)
Definition ends87 (hw : nat) (l : list pcall) : pctx := foldl (λ st c, (pstep hw (own 0) c st).1) pctx_init l.
Example ex_C87_exists : fstep 4 (own 1) (PConstruct 2) (Some (FStart 1)) (ends87 4 [PConstruct 3]) = (ends87 4 [PConstruct 3], PThrow).
Proof. by vm_compute. Qed.
Example ex_C87_again : (fstep 4 (own 0) (PConstruct 3) (Some FReserve) (ends87 4 [PConstruct 3; PDestroy 0])) = (ends87 4 [PConstruct 3; PDestroy 0], PThrow) ∧
  (pstep 4 (own 0) (PConstruct 3) (ends87 4 [PConstruct 3; PDestroy 0])).2 = POk ∧
  (fstep 4 (own 0) (PConstruct 3) (Some (FStart 2)) (ends87 4 [PConstruct 3; PDestroy 0])).2 = PTerminate ∧
  (fstep 4 (own 0) (PConstruct 3) (Some (FWorker 0)) (ends87 4 [PConstruct 3; PDestroy 0])).2 = PThrow ∧
  (pstep 4 (own 0) (PConstruct 3) (fstep 4 (own 0) (PConstruct 3) (Some (FWorker 0)) (ends87 4 [PConstruct 3; PDestroy 0])).1).2 = PThrow.
Proof. by vm_compute. Qed.
Example ex_C88 : pool_workers 4 = [0; 1; 2; 3]%N ∧ worker_by_id (pool_workers 4) 3 = inl 3 ∧ worker_by_id (pool_workers 4) 4 = inr PTerminate ∧
  (random_worker (pool_workers 4) <$> [0; 1; 2; 3]) = [Some 1; Some 2; Some 3; Some 1] ∧ as_u16 (N.to_nat 65537) = 1%N.
Proof. by vm_compute. Qed.

Print Assumptions C87_exact_partial.
Print Assumptions C87_get_refuted.
Print Assumptions C87_refuted.
Print Assumptions C88_ids_partial.
Print Assumptions C88_out_of_range.
Print Assumptions C88_random.
Print Assumptions C88_refuted.
