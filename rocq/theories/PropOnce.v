(** C100: every recorded command runs once, at the end of its frame, and frames run in order. *)
From stdpp Require Import sorting.
From Verif Require Import Base Bits Layout HandlePool HandleSpec HandlePoolProofs SparseMap SparseMapProofs
  HashTable HashTableProofs HashTableMap Bitset BitsetProofs ComponentSet ComponentSetProofs
  Chunk ChunkProofs Archetype ArchetypeProofs Registry RegistryStore RegistryProofs View ViewProofs RegSpec RegSpecProofs
  RegObs RegRun PropRegistry PropView PropStorage Command CommandSpec CommandProofs PropCommand Once.

Section props.
Context (U : universe).
Hypothesis HU : u_wf U.

Lemma executes_app w tr1 w1 tr2 w' : executes U w tr1 w1 → executes U w1 tr2 w' → executes U w (tr1 ++ tr2) w'.
Proof. induction 1; cbn; [done|]. intros H2. econstructor; eauto. Qed.
Lemma ran_on_app b tr1 tr2 : ran_on b (tr1 ++ tr2) = ran_on b tr1 ++ ran_on b tr2.
Proof. unfold ran_on. by rewrite filter_app, fmap_app. Qed.
Lemma thrown_app tr1 tr2 : thrown (tr1 ++ tr2) = thrown tr1 ++ thrown tr2.
Proof. apply omap_app. Qed.

(** One queue with frames. *)
Definition exn_of {X} (o : outcome X) : list exn := match o with Throw e => [e] | _ => [] end.
Lemma directs_ran b t w l rest o w' : directs U w l rest o w' → ∀ lq : list (nat * (crec * handle)), lq.*2 = l →
  ∃ tr lq', lq'.*2 = rest ∧ executes U w tr w' ∧ lq = ((λ r, (r_at r, r_call r)) <$> tr) ++ lq' ∧
    Forall (λ r, r_buf r = b ∧ r_in r = t) tr ∧ thrown tr = exn_of o ∧ (o = Ok tt → lq' = []).
Proof.
  induction 1 as [w|w k g w1 l rest o w' H1 H2 IH|w k g l e w' H1]; intros lq Hq.
  - apply fmap_nil_inv in Hq as ->. exists [], []. split_and!; try done; constructor.
  - destruct lq as [|[f [k0 g0]] lq]; [done|]. cbn in Hq. injection Hq as -> -> Hq.
    destruct (IH lq Hq) as (tr & lq' & E1 & E2 & E3 & E4 & E5 & E6).
    exists (Ran b f t (k, g) (Ok tt) :: tr), lq'. split_and!; try done.
    + by econstructor.
    + cbn. by rewrite E3.
    + by constructor.
  - destruct lq as [|[f [k0 g0]] lq]; [done|]. cbn in Hq. injection Hq as -> -> Hq.
    exists [Ran b f t (k, g) (Throw e)], lq. split_and!; try done.
    + econstructor; [done|constructor].
    + by repeat constructor.
Qed.

Lemma ran_on_all b t tr : Forall (λ r, r_buf r = b ∧ r_in r = t) tr → ran_on b tr = (λ r, (r_at r, r_call r)) <$> tr.
Proof. unfold ran_on. induction 1 as [|r tr [E _] _ IH]; [done|]. rewrite filter_cons_True by done. cbn. by rewrite IH. Qed.
Lemma ran_on_none b b' t tr : Forall (λ r, r_buf r = b' ∧ r_in r = t) tr → b' ≠ b → ran_on b tr = [].
Proof. unfold ran_on. induction 1 as [|r tr [E _] _ IH]; intros Hb; [done|]. rewrite filter_cons_False by congruence. by apply IH. Qed.
Lemma ran_on_above b d t tr : Forall (λ r, d ≤ r_buf r ∧ r_in r = t) tr → b < d → ran_on b tr = [].
Proof. unfold ran_on. induction 1 as [|r tr [E _] _ IH]; intros Hb; [done|]. rewrite filter_cons_False by lia. by apply IH. Qed.

Lemma drained_ran t w qs qs' o w' : drained U w qs qs' o w' → ∀ d (lqs : list (list (nat * (crec * handle)))), (λ q, q.*2) <$> lqs = qs →
  ∃ tr lqs', (λ q : list (nat * (crec * handle)), q.*2) <$> lqs' = qs' ∧ executes U w tr w' ∧ Forall (λ r, d ≤ r_buf r ∧ r_in r = t) tr ∧
    Forall (λ r, r_buf r < d + length lqs) tr ∧
    (∀ (b : nat) q, lqs !! b = Some q → ∃ q', lqs' !! b = Some q' ∧ q = ran_on (d + b) tr ++ q' ∧ (o = Ok tt → q' = [])) ∧
    thrown tr = exn_of o.
Proof.
  induction 1 as [w|w q w1 qs qs' o w' H1 H2 IH|w q rest e w' qs H1]; intros d lqs Hq.
  - apply fmap_nil_inv in Hq as ->. exists [], []. split_and!; try done; constructor.
  - destruct lqs as [|lq lqs]; [done|]. cbn in Hq. injection Hq as Hq Hqs.
    destruct (directs_ran d t _ _ _ _ _ H1 lq Hq) as (tr1 & lq1 & E1 & E2 & E3 & E4 & E5 & E6). specialize (E6 eq_refl). subst lq1.
    destruct (IH (S d) lqs Hqs) as (tr2 & lqs2 & F1 & F2 & F3 & F6 & F4 & F5). rewrite app_nil_r in E3.
    exists (tr1 ++ tr2), ([] :: lqs2). split_and!.
    + cbn. by rewrite F1.
    + by eapply executes_app.
    + apply Forall_app. split; [eapply Forall_impl; [exact E4|]|eapply Forall_impl; [exact F3|]]; cbn; intros r [? ?]; split; lia.
    + apply Forall_app. split; [eapply Forall_impl; [exact E4|]; cbn; intros r [? ?]; lia|eapply Forall_impl; [exact F6|]; cbn; intros r ?; lia].
    + intros [|b] x Hx; cbn in Hx.
      * injection Hx as <-. exists []. split_and!; try done. rewrite Nat.add_0_r, ran_on_app, (ran_on_all _ _ _ E4), (ran_on_above _ _ _ _ F3) by lia.
        by rewrite !app_nil_r.
      * destruct (F4 _ _ Hx) as (q' & G1 & G2 & G3). exists q'. split_and!; try done.
        rewrite ran_on_app, (ran_on_none _ _ _ _ E4) by lia. cbn. by rewrite Nat.add_succ_r.
    + rewrite thrown_app, E5, F5. done.
  - destruct lqs as [|lq lqs]; [done|]. cbn in Hq. injection Hq as Hq Hqs.
    destruct (directs_ran d t _ _ _ _ _ H1 lq Hq) as (tr1 & lq1 & E1 & E2 & E3 & E4 & E5 & E6).
    exists tr1, (lq1 :: lqs). split_and!; try done.
    + cbn. by rewrite E1, Hqs.
    + eapply Forall_impl; [eassumption|]. cbn. intros r [? ?]; split; lia.
    + eapply Forall_impl; [eassumption|]. cbn. intros r [? ?]; lia.
    + intros [|b] x Hx; cbn in Hx.
      * injection Hx as <-. exists lq1. split_and!; try done. by rewrite Nat.add_0_r, (ran_on_all _ _ _ E4).
      * exists x. split_and!; try done. by rewrite (ran_on_none _ _ _ _ E4) by lia.
Qed.

Definition sorted_in (tr : list ran) : Prop := StronglySorted (λ x y, r_in x ≤ r_in y) tr.
Lemma sorted_const t tr (P : ran → Prop) : Forall (λ r, P r ∧ r_in r = t) tr → sorted_in tr.
Proof.
  unfold sorted_in. induction 1 as [|r tr [_ E] H IH]; constructor; [done|]. eapply Forall_impl; [exact H|]. cbn. intros ? [_ ?]. lia.
Qed.
Lemma sorted_app t tr1 tr2 : Forall (λ r, r_in r ≤ t) tr1 → Forall (λ r, t < r_in r) tr2 → sorted_in tr1 → sorted_in tr2 → sorted_in (tr1 ++ tr2).
Proof.
  unfold sorted_in. induction tr1 as [|r tr1 IH]; cbn; [done|]. intros H1 H2 S1 S2. inversion H1; subst. inversion S1; subst.
  constructor; [by apply IH|]. apply Forall_app. split; [done|]. eapply Forall_impl; [exact H2|]. cbn. intros. lia.
Qed.

Definition lqs_at (b : nat) (lqs : list (list (nat * (crec * handle)))) : list (nat * (crec * handle)) := default [] (lqs !! b).
Lemma elem_ran_on r tr : r ∈ tr → (r_at r, r_call r) ∈ ran_on (r_buf r) tr.
Proof. intros H. unfold ran_on. apply elem_of_list_fmap. exists r. split; [done|]. by apply elem_of_list_filter. Qed.

Lemma cnexts_ran a ops os a' : cnexts U a ops os a' → ∀ t (lqs : list (list (nat * (crec * handle)))),
  (λ q, q.*2) <$> lqs = ap_queues a → Forall (Forall (λ x, x.1 ≤ t)) lqs →
  Forall (λ op, match op with CRec b _ => b < length lqs | CFlush => True end) ops →
  ∃ tr lqs', length lqs' = length lqs ∧ (λ q : list (nat * (crec * handle)), q.*2) <$> lqs' = ap_queues a' ∧ executes U (ap_world a) tr (ap_world a') ∧
    (∀ (b : nat) q, lqs !! b = Some q → ∃ q', lqs' !! b = Some q' ∧ q ++ recorded b t ops os = ran_on b tr ++ q') ∧
    sorted_in tr ∧ Forall (λ r, t ≤ r_in r ∧ r_at r ≤ r_in r ∧ r_buf r < length lqs) tr ∧ thrown tr = failures ops os ∧
    (failures ops os = [] → Forall (Forall (λ x, x.1 = t)) lqs → Forall (λ r, r_at r = r_in r) tr).
Proof.
  induction 1 as [a|a op o a1 ops os a' Hs Hn IH]; intros t lqs Hq Hle Hb.
  { exists [], lqs. split_and!; try done; try constructor. intros b q E. exists q. split; [done|]. by rewrite app_nil_r. }
  inversion Hb as [|? ? Hb1 Hb2]; subst. destruct op as [b k|]; cbn in Hs, Hb1.
  - destruct Hs as [(g & -> & _ & ->)|(cs & -> & -> & _)].
    + set (lqs1 := alter (.++ [(t, (k, g))]) b lqs). cbn in IH.
      assert (length lqs1 = length lqs) as Hl by (unfold lqs1; by rewrite alter_length).
      assert ((λ q : list (nat * (crec * handle)), q.*2) <$> lqs1 = alter (.++ [(k, g)]) b (ap_queues a)) as Hq1.
      { unfold lqs1. rewrite <- Hq. apply list_alter_fmap. apply Forall_forall. intros q _. cbn. by rewrite fmap_app. }
      assert (∀ P : nat * (crec * handle) → Prop, P (t, (k, g)) → Forall (Forall P) lqs → Forall (Forall P) lqs1) as HP.
      { intros P Hp HF. apply Forall_lookup. intros j q Ej. unfold lqs1 in Ej. destruct (decide (j = b)) as [->|Hj].
        - rewrite list_lookup_alter in Ej. destruct (lqs !! b) as [q0|] eqn:E0; [|done]. cbn in Ej. injection Ej as <-.
          apply Forall_app. split; [by eapply Forall_lookup in HF|]. by constructor.
        - rewrite list_lookup_alter_ne in Ej by done. by eapply Forall_lookup in HF. }
      destruct (IH t lqs1 Hq1) as (tr & lqs' & El & E1 & E2 & E3 & E4 & E5 & E6 & E7).
      { by apply HP. } { by rewrite Hl. } rewrite Hl in El.
      exists tr, lqs'. rewrite Hl in E5. split_and!; try done.
      * intros j q Ej. cbn. destruct (decide (b = j)) as [->|Hj].
        -- destruct (E3 j (q ++ [(t, (k, g))])) as (q' & F1 & F2). { unfold lqs1. by rewrite list_lookup_alter, Ej. }
           exists q'. split; [done|]. rewrite <- F2, <- app_assoc. done.
        -- apply E3. unfold lqs1. by rewrite list_lookup_alter_ne.
      * cbn. intros Hf Hall. apply E7; [done|]. by apply HP.
    + destruct (IH t lqs Hq Hle Hb2) as (tr & lqs' & El & E1 & E2 & E3 & E4 & E5 & E6 & E7). exists tr, lqs'. split_and!; done.
  - destruct Hs as (o1 & w' & qs' & Hd & -> & ->). cbn in IH.
    destruct (drained_ran t _ _ _ _ _ Hd 0 lqs Hq) as (tr1 & lqs1 & D1 & D2 & D3 & Hbuf & D4 & D5).
    assert (length lqs1 = length lqs) as Hl.
    { apply (f_equal length) in D1. apply (f_equal length) in Hq. rewrite fmap_length in D1, Hq.
      assert (length qs' = length (ap_queues a)) as Hx. { clear -Hd. by induction Hd; cbn; [|rewrite IHHd|]. } lia. }
    assert (∀ P : nat * (crec * handle) → Prop, Forall (Forall P) lqs → Forall (Forall P) lqs1) as HP.
    { intros P HF. apply Forall_lookup. intros j q Ej. destruct (lookup_lt_is_Some_2 lqs j) as [q0 E0].
      { rewrite <- Hl. by eapply lookup_lt_Some. }
      destruct (D4 _ _ E0) as (q' & F1 & F2 & _). rewrite Ej in F1. injection F1 as <-.
      eapply Forall_lookup in HF; [|exact E0]. cbn in HF. rewrite F2 in HF. by apply Forall_app in HF as [_ ?]. }
    assert (∀ P : nat → Prop, Forall (Forall (λ x, P x.1)) lqs → Forall (λ r, P (r_at r)) tr1) as HT.
    { intros P HF. apply Forall_forall. intros r Hr. pose proof Hr as Hr'. apply elem_ran_on in Hr'.
      eapply Forall_forall in Hbuf; [|exact Hr]. cbn in Hbuf. destruct (lookup_lt_is_Some_2 lqs (r_buf r)) as [q Eq]; [done|].
      destruct (D4 _ _ Eq) as (q' & F1 & F2 & _). eapply Forall_lookup in HF; [|exact Eq]. cbn in HF. rewrite F2 in HF.
      apply Forall_app in HF as [HF _]. cbn in HF. eapply Forall_forall in HF; [|exact Hr']. done. }
    destruct (IH (S t) lqs1 D1) as (tr2 & lqs' & El & E1 & E2 & E3 & E4 & E5 & E6 & E7).
    { apply HP. eapply Forall_impl; [exact Hle|]. intros q Hx. eapply Forall_impl; [exact Hx|]. cbn. intros; lia. }
    { by rewrite Hl. }
    rewrite Hl in E5, El. exists (tr1 ++ tr2), lqs'. split_and!; try done.
    + by eapply executes_app.
    + intros j q Ej. destruct (D4 _ _ Ej) as (q1 & F1 & F2 & _). destruct (E3 _ _ F1) as (q' & G1 & G2). exists q'. split; [done|].
      cbn in F2. rewrite ran_on_app, F2, <- !app_assoc. cbn. by rewrite G2.
    + apply (sorted_app t).
      * eapply Forall_impl; [exact D3|]. cbn. intros r [_ ?]. lia.
      * eapply Forall_impl; [exact E5|]. cbn. intros r (? & _). lia.
      * exact (sorted_const t _ (λ r, 0 ≤ r_buf r) D3).
      * done.
    + apply Forall_app. split.
      * pose proof (HT (λ x, x ≤ t) Hle) as Hat. apply Forall_forall. intros r Hr. eapply Forall_forall in Hat, D3, Hbuf; [|done..]. cbn in *. lia.
      * eapply Forall_impl; [exact E5|]. cbn. intros r (? & ? & ?). lia.
    + rewrite thrown_app, D5, E6. destruct o1; done.
    + intros Hf Hall. assert (o1 = Ok tt) as ->.
      { destruct o1 as [[]|e|]; [done|done|]. by apply drained_out in Hd. }
      apply Forall_app. split.
      * pose proof (HT (λ x, x = t) Hall) as Hat. apply Forall_forall. intros r Hr. eapply Forall_forall in Hat, D3; [|done..]. cbn in *. lia.
      * apply E7; [done|]. apply Forall_lookup. intros j q Ej. destruct (lookup_lt_is_Some_2 lqs j) as [q0 E0].
        { rewrite <- Hl. by eapply lookup_lt_Some. }
        destruct (D4 _ _ E0) as (q' & F1 & F2 & F3). rewrite Ej in F1. injection F1 as <-. by rewrite F3.
Qed.


Lemma permitted_bufs nb ops : all_permitted U nb ops → Forall (λ op, match op with CRec b _ => b < nb | CFlush => True end) ops.
Proof. intros H. eapply Forall_impl; [exact H|]. intros [b k|]; cbn; [by intros [? _]|done]. Qed.

Lemma direct_out w k g w' : ¬ direct U w k g UB w'.
Proof.
  destruct k as [args|h|h c v|h c|h]; cbn; [by intros [? _]|..];
    (destruct (w !! h); [|by intros [[?|?] _]]); [intros [(_ & ? & _)|(_ & ? & _)]|intros [[? _]|[? _]]|intros [[? _]|[? _]]|intros [? _]]; done.
Qed.
Definition explains (i : nat) (cs : cstate) (s : sreg) ops os (cs' : cstate) (tr : list ran) : Prop :=
  ∃ m ss' s', reach U m (cs_regs cs') ss' ∧ ss' !! i = Some s' ∧ executes U (sr_world s) tr (sr_world s') ∧
     StronglySorted (λ x y, r_in x ≤ r_in y) tr ∧ (∀ r, r ∈ tr → r_at r ≤ r_in r ∧ r_buf r < length (cs_bufs cs)) ∧
     thrown tr = failures ops os ∧ length (cs_bufs cs') = length (cs_bufs cs) ∧
     ∀ (b : nat) x', cs_bufs cs' !! b = Some x' →
       ∃ rest, recorded b 0 ops os = ran_on b tr ++ rest ∧ length (cb_queue x') = length rest.
Lemma history_ran n i cs ss s ops cs' os : ready U n i cs ss s → below_wrap (2 * (n + 5 * length ops)) →
  run_cops U i ops cs = (cs', os) → all_permitted U (length (cs_bufs cs)) ops →
  (∃ tr a', cnexts U (aprog_of cs ss s) ops os a' ∧ explains i cs s ops os cs' tr ∧ (failures ops os = [] → ∀ r, r ∈ tr → r_at r = r_in r)) ∨
  (last os = Some UB ∧ stuck U (cs_regs cs')).
Proof.
  intros Hr Hbw E Hp. destruct (C27_history U HU n i cs ss s _ _ _ Hr Hbw E Hp) as [(a' & Hx & Hs)|[Hu ?]]; [left|by right].
  pose proof (cnexts_len _ _ _ _ _ Hx) as Hl. pose proof (permitted_bufs _ _ Hp) as Hb.
  destruct (cnexts_ran _ _ _ _ Hx 0 ((λ _, []) <$> cs_bufs cs)) as (tr & lqs' & El & E1 & E2 & E3 & E4 & E5 & E6 & E7).
  { cbn. rewrite <- list_fmap_compose. done. }
  { apply Forall_fmap. apply Forall_forall. intros ? _. constructor. }
  { by rewrite fmap_length. }
  rewrite fmap_length in E5. exists tr, a'. split; [done|]. split.
  - destruct Hs as (m & ss' & s' & _ & Hr' & Hs' & Hw' & _ & Hlq & Hbs). exists m, ss', s'. split_and!; try done.
    + rewrite Hw'. apply E2.
    + intros r Hin. eapply Forall_forall in E5; [|exact Hin]. cbn in E5. lia.
    + by rewrite <- Hlq, <- E1, fmap_length, El, fmap_length.
    + intros b x' Hb'. destruct (Hbs _ _ Hb') as (Q & k & HQ & _ & HlQ & _). rewrite <- E1, list_lookup_fmap in HQ.
      destruct (lqs' !! b) as [q'|] eqn:Eq; [|done]. cbn in HQ. injection HQ as <-.
      destruct (E3 b []) as (q2 & F1 & F2). { apply lookup_lt_Some in Eq. rewrite El, fmap_length in Eq. apply lookup_lt_is_Some_2 in Eq as [? Eq]. by rewrite list_lookup_fmap, Eq. }
      rewrite Eq in F1. injection F1 as <-. cbn in F2. exists q'. rewrite HlQ, fmap_length. done.
  - intros Hf r Hin. eapply Forall_forall in E7; [exact E7|done| |exact Hin]. apply Forall_fmap. apply Forall_forall. intros ? _. constructor.
Qed.

(** What holds of every history, however many calls of flush throw: there is one sequence of executions that explains the
    entities of the registry; the commands of a thread that were executed are a prefix of those it recorded, and the rest
    is still queued; the exceptions of the executions are those the calls of flush threw. *)
Theorem C100_once_partial n i cs ss s ops cs' os : ready U n i cs ss s → below_wrap (2 * (n + 5 * length ops)) →
  run_cops U i ops cs = (cs', os) → all_permitted U (length (cs_bufs cs)) ops →
  (∃ tr m ss' s', reach U m (cs_regs cs') ss' ∧ ss' !! i = Some s' ∧ executes U (sr_world s) tr (sr_world s') ∧
     StronglySorted (λ x y, r_in x ≤ r_in y) tr ∧ (∀ r, r ∈ tr → r_at r ≤ r_in r ∧ r_buf r < length (cs_bufs cs)) ∧
     thrown tr = failures ops os ∧ length (cs_bufs cs') = length (cs_bufs cs) ∧
     ∀ (b : nat) x', cs_bufs cs' !! b = Some x' →
       ∃ rest, recorded b 0 ops os = ran_on b tr ++ rest ∧ length (cb_queue x') = length rest) ∨
  (last os = Some UB ∧ stuck U (cs_regs cs')).
Proof.
  intros Hr Hbw E Hp. destruct (history_ran _ _ _ _ _ _ _ _ Hr Hbw E Hp) as [(tr & _ & _ & Hx & _)|?]; [left|by right]. by exists tr.
Qed.

(** What holds when no call of flush threw and the history ends with one: all that was recorded was executed, everything at the
    end of the frame in which it was recorded, frame by frame. *)
Theorem C100_frames_partial n i cs ss s ops cs' os : ready U n i cs ss s → below_wrap (2 * (n + 5 * S (length ops))) →
  run_cops U i (ops ++ [CFlush]) cs = (cs', os ++ [Ok None]) →
  all_permitted U (length (cs_bufs cs)) (ops ++ [CFlush]) →
  failures (ops ++ [CFlush]) (os ++ [Ok None]) = [] →
  ∃ tr m ss' s', reach U m (cs_regs cs') ss' ∧ ss' !! i = Some s' ∧ executes U (sr_world s) tr (sr_world s') ∧
     StronglySorted (λ x y, r_at x ≤ r_at y) tr ∧ (∀ r, r ∈ tr → r_in r = r_at r ∧ r_out r = Ok tt) ∧
     ∀ b : nat, b < length (cs_bufs cs) → ran_on b tr = recorded b 0 (ops ++ [CFlush]) (os ++ [Ok None]).
Proof.
  intros Hr Hbw E Hp Hf. assert (below_wrap (2 * (n + 5 * length (ops ++ [CFlush])))) as Hbw'.
  { rewrite app_length. cbn [length]. by rewrite Nat.add_1_r. }
  destruct (history_ran _ _ _ _ _ _ _ _ Hr Hbw' E Hp) as [(tr & a' & Hn & Hx & Hi)|[Hu _]].
  2:{ by apply last_UB in Hu. }
  specialize (Hi Hf). destruct Hx as (m & ss' & s' & Hr' & Hs' & He & Hso & Hin & Ht & Hl & Hb). exists tr, m, ss', s'. split_and!; try done.
  - clear -Hso Hi. induction Hso as [|r tr Hs IH Hf]; constructor.
    + apply IH. intros x Hx. apply Hi. by right.
    + apply Forall_forall. intros x Hx. eapply Forall_forall in Hf; [|exact Hx]. rewrite (Hi r), (Hi x); [done|by right|by left].
  - intros r Hr0. split; [by rewrite Hi|]. rewrite Hf in Ht. clear -Ht Hr0 He. revert Ht Hr0. induction He as [|w x w1 tr w' Hd He IH]; intros Ht Hin; [by apply elem_of_nil in Hin|].
    unfold thrown in Ht. cbn in Ht. destruct (r_out x) as [[]|e|] eqn:Ex; [|done|].
    + apply elem_of_cons in Hin as [->|Hin]; [done|]. by apply IH.
    + by apply direct_out in Hd.
  - intros b Hlt. rewrite <- Hl in Hlt. apply lookup_lt_is_Some_2 in Hlt as [x' Hx']. destruct (Hb _ _ Hx') as (rest & F1 & F2).
    destruct (C28_residue_partial U HU n i cs ss s ops cs' os Hr Hbw E Hp) as (m2 & ss2 & _ & Hlb & Hq).
    destruct (lookup_lt_is_Some_2 (cs_bufs cs) b) as [x Hx]. { rewrite <- Hlb. by eapply lookup_lt_Some. }
    destruct (Hq _ _ _ Hx Hx') as [Hnil _]. rewrite Hnil in F2. destruct rest; [|done]. by rewrite F1, app_nil_r.
Qed.

(** What holds with one thread, even if calls of flush throw: the commands are executed in the order of their frames. *)
Lemma recorded_sorted b ops : ∀ t os, StronglySorted (λ x y : nat * (crec * handle), x.1 ≤ y.1) (recorded b t ops os) ∧
  Forall (λ x, t ≤ x.1) (recorded b t ops os).
Proof.
  induction ops as [|op ops IH]; intros t os; [split; constructor|]. destruct os as [|o os]; [destruct op; split; constructor|].
  destruct op as [b' k|]; cbn.
  - destruct (IH t os) as [I1 I2]. destruct o as [[g|]|e|]; try done. destruct (decide (b' = b)); [|done]. split; constructor; done.
  - destruct (IH (S t) os) as [I1 I2]. split; [done|]. eapply Forall_impl; [exact I2|]. cbn. intros; lia.
Qed.
Lemma sorted_pre {X} (R : X → X → Prop) l1 l2 : StronglySorted R (l1 ++ l2) → StronglySorted R l1.
Proof.
  induction l1 as [|x l1 IH]; cbn; [constructor|]. intros H. inversion H as [|? ? H1 H2]; subst. constructor; [by apply IH|].
  by apply Forall_app in H2 as [? _].
Qed.
Lemma sorted_fmap {X Y} (f : X → Y) (R : Y → Y → Prop) l : StronglySorted R (f <$> l) → StronglySorted (λ x y, R (f x) (f y)) l.
Proof. induction l as [|x l IH]; cbn; [constructor|]. intros H. inversion H as [|? ? H1 H2]; subst. constructor; [by apply IH|].
  apply Forall_forall. intros y Hy. eapply Forall_forall in H2; [exact H2|]. by apply elem_of_list_fmap_1. Qed.
Theorem C100_one_thread_partial n i cs ss s ops cs' os : ready U n i cs ss s → below_wrap (2 * (n + 5 * length ops)) →
  length (cs_bufs cs) = 1 →
  run_cops U i ops cs = (cs', os) → all_permitted U (length (cs_bufs cs)) ops →
  (∃ tr m ss' s' x' rest, reach U m (cs_regs cs') ss' ∧ ss' !! i = Some s' ∧ executes U (sr_world s) tr (sr_world s') ∧
     StronglySorted (λ x y, r_at x ≤ r_at y) tr ∧ cs_bufs cs' = [x'] ∧
     recorded 0 0 ops os = ((λ r, (r_at r, r_call r)) <$> tr) ++ rest ∧ length (cb_queue x') = length rest) ∨
  (last os = Some UB ∧ stuck U (cs_regs cs')).
Proof.
  intros Hr Hbw H1 E Hp. destruct (history_ran _ _ _ _ _ _ _ _ Hr Hbw E Hp) as [(tr & _ & _ & Hx & _)|?]; [left|by right].
  destruct Hx as (m & ss' & s' & Hr' & Hs' & He & Hso & Hin & Ht & Hl & Hb). rewrite H1 in Hl.
  destruct (cs_bufs cs') as [|x' [|]] eqn:Ec; try done. destruct (Hb 0 x' eq_refl) as (rest & F1 & F2).
  assert (ran_on 0 tr = (λ r, (r_at r, r_call r)) <$> tr) as Hon.
  { unfold ran_on. f_equal. clear -Hin H1. rewrite H1 in Hin. induction tr as [|r tr IH]; [done|]. rewrite filter_cons_True.
    - f_equal. apply IH. intros x Hx. apply Hin. by right.
    - destruct (Hin r); [by left|]. lia. }
  rewrite Hon in F1. exists tr, m, ss', s', x', rest. split_and!; try done.
  destruct (recorded_sorted 0 ops 0 os) as [Hs _]. rewrite F1 in Hs. apply sorted_pre in Hs. apply sorted_fmap in Hs. done.
Qed.

(** Calling flush again and again ends: more calls than there are recorded commands include one that returns. *)
Definition total (qs : list (list (crec * handle))) : nat := length (concat qs).
Lemma total_alter K (b : nat) : ∀ qs, total (alter (.++ K) b qs) ≤ total qs + length K.
Proof.
  unfold total. induction b as [|b IH]; intros [|q qs]; cbn; [lia| |lia|].
  - rewrite !app_length. lia.
  - specialize (IH qs). rewrite !app_length. lia.
Qed.
Lemma directs_len w l rest o w' : directs U w l rest o w' → length rest + length (exn_of o) ≤ length l.
Proof. induction 1; cbn; cbn in *; lia. Qed.
Lemma drained_len w qs qs' o w' : drained U w qs qs' o w' → total qs' + length (exn_of o) ≤ total qs.
Proof.
  unfold total. induction 1 as [w|w q w1 qs qs' o w' H1 H2 IH|w q rest e w' qs H1]; [done|..]; cbn; rewrite ?app_length.
  - lia.
  - apply directs_len in H1. cbn in H1. lia.
Qed.
Lemma cnexts_total a ops os a' : cnexts U a ops os a' → total (ap_queues a') + length (failures ops os) ≤ total (ap_queues a) + accepted os.
Proof.
  induction 1 as [a|a op o a1 ops os a' Hs Hn IH]; [done|]. destruct op as [b k|]; cbn in Hs.
  - destruct Hs as [(g & -> & _ & ->)|(cs & -> & -> & _)]; cbn in *.
    + pose proof (total_alter [(k, g)] b (ap_queues a)) as Ht. cbn [length] in Ht. unfold total, accepted in *. lia.
    + unfold total, accepted in *. lia.
  - destruct Hs as (o1 & w' & qs' & Hd & -> & ->). pose proof (drained_out U _ _ _ _ _ Hd). apply drained_len in Hd. destruct o1 as [[]|e|]; cbn in *; unfold total, accepted in *; [lia|lia|done].
Qed.
Lemma cnexts_flushes k : ∀ a os a', cnexts U a (replicate k CFlush) os a' → accepted os = 0 ∧ (Ok None ∈ os ∨ length (failures (replicate k CFlush) os) = k).
Proof.
  induction k as [|k IH]; intros a os a' Hn; cbn in Hn; inversion Hn as [|? ? o ? ? os1 ? Hs Hn1]; subst; [by split; [|right]|].
  destruct (IH _ _ _ Hn1) as [H1 H2]. destruct Hs as (o1 & w' & qs' & Hd & -> & _). pose proof (drained_out U _ _ _ _ _ Hd).
  destruct o1 as [[]|e|]; cbn; [split; [done|left; by left]| |done]. split; [done|]. destruct H2 as [H2|H2]; [left; by right|right]. by rewrite H2.
Qed.
Theorem C100_retry_partial n i cs ss s ops cs' os os2 q : ready U n i cs ss s → below_wrap (2 * (n + 5 * (length ops + S q))) →
  run_cops U i (ops ++ replicate (S q) CFlush) cs = (cs', os ++ os2) → length os = length ops →
  all_permitted U (length (cs_bufs cs)) (ops ++ replicate (S q) CFlush) → accepted os ≤ q →
  Ok None ∈ os2 ∨ (last (os ++ os2) = Some UB ∧ stuck U (cs_regs cs')).
Proof.
  intros Hr Hbw E Hl Hp Hq. assert (below_wrap (2 * (n + 5 * length (ops ++ replicate (S q) CFlush)))) as Hbw'.
  { by rewrite app_length, replicate_length. }
  destruct (C27_history U HU n i cs ss s _ _ _ Hr Hbw' E Hp) as [(a' & Hx & Hs)|[Hu ?]]; [left|by right].
  apply cnexts_app in Hx as (os1 & os2' & a1 & Eo & H1 & H2). pose proof (cnexts_len _ _ _ _ _ H1) as Hl1.
  apply app_inj_1 in Eo as [<- <-]; [|by rewrite Hl, Hl1]. destruct (cnexts_flushes _ _ _ _ H2) as [Ha [?|Hf]]; [done|exfalso].
  apply cnexts_total in H1, H2. assert (total (ap_queues (aprog_of cs ss s)) = 0) as H0.
  { cbn. unfold total. clear. by induction (cs_bufs cs). }
  rewrite Hf in H2. lia.
Qed.
End props.

(** * Refutation and examples *)

(** A command of thread 0 throws in frame 1.  The value that thread 1 set in frame 1 replaces the one that thread 0 set in
    frame 2. *)
Definition ops100 : list cop := [CRec 0 (KCreate [(1%N, Val 1)]); CRec 0 (KCreate [(1%N, Val 2)]); CFlush;
  CRec 0 (KDestroy h0); CRec 0 (KDestroy h0); CRec 1 (KSet h1 2%N (Val 10)); CFlush; CRec 0 (KSet h1 2%N (Val 20)); CFlush].
Definition os100 : list (outcome (option handle)) :=
  [Ok (Some h0); Ok (Some h1); Ok None; Ok (Some h0); Ok (Some h0); Ok (Some h1); Throw EntityNotFound; Ok (Some h1); Ok None].
Theorem C100_refuted : ∃ ops cs' os ss s r k1 k2, ready U0 0 0 cs0 ss s ∧ all_permitted U0 2 ops ∧ informed (sr_issued s) ops os ∧
  run_cops U0 0 ops cs0 = (cs', os) ∧ last os = Some (Ok None) ∧ cs_regs cs' !! 0 = Some r ∧
  k1 = KSet h1 2%N (Val 10) ∧ k2 = KSet h1 2%N (Val 20) ∧ recorded 1 0 ops os = [(1, (k1, h1))] ∧ last (recorded 0 0 ops os) = Some (2, (k2, h1)) ∧
  (rg_get h1 2%N r).2 = Ok (CVal (Val 10)).
Proof.
  exists ops100, (run_cops U0 0 ops100 cs0).1, os100, (replicate 3 sreg_init), sreg_init,
    (default rg_init (cs_regs (run_cops U0 0 ops100 cs0).1 !! 0)), (KSet h1 2%N (Val 10)), (KSet h1 2%N (Val 20)).
  split; [apply ex_ready|]. split; [permits|]. split; [informs|]. split; [by vm_compute|]. split; [done|]. split; [by vm_compute|]. by vm_compute.
Qed.
Example ex_C100_run : run_cops U0 0 ops100 cs0 = ((run_cops U0 0 ops100 cs0).1, os100). Proof. by vm_compute. Qed.
Example ex_C100_once := C100_once_partial U0 U0_wf 0 0 cs0 _ _ ops100 _ os100 ex_ready ltac:(by vm_compute) ex_C100_run ltac:(permits).
Example ex_C100_failures : failures ops100 os100 = [EntityNotFound]. Proof. done. Qed.

(** Two frames of two threads without exceptions. *)
Definition ops100f : list cop := [CRec 0 (KCreate [(1%N, Val 1)]); CRec 1 (KCreate [(1%N, Val 2)]); CFlush;
  CRec 1 (KSet h0 2%N (Val 10)); CRec 0 (KClone h1); CRec 0 (KDestroy h1)].
Definition os100f : list (outcome (option handle)) := [Ok (Some h0); Ok (Some h1); Ok None; Ok (Some h0); Ok (Some h2); Ok (Some h1)].
Example ex_C100f_run : run_cops U0 0 (ops100f ++ [CFlush]) cs0 = ((run_cops U0 0 (ops100f ++ [CFlush]) cs0).1, os100f ++ [Ok None]).
Proof. by vm_compute. Qed.
Example ex_C100_frames := C100_frames_partial U0 U0_wf 0 0 cs0 _ _ ops100f _ os100f ex_ready ltac:(by vm_compute) ex_C100f_run ltac:(permits) eq_refl.
Example ex_C100f_recorded : (recorded 0 0 (ops100f ++ [CFlush]) (os100f ++ [Ok None]), recorded 1 0 (ops100f ++ [CFlush]) (os100f ++ [Ok None])) =
  ([(0, (KCreate [(1%N, Val 1)], h0)); (1, (KClone h1, h2)); (1, (KDestroy h1, h1))], [(0, (KCreate [(1%N, Val 2)], h1)); (1, (KSet h0 2%N (Val 10), h0))]).
Proof. done. Qed.

(** One thread; two commands of frame 1 throw. *)
Definition cs100 : cstate := CState (replicate 2 rg_init) [Buffer 1 [] true].
Example ex_C100_ready : ready U0 0 0 cs100 (replicate 2 sreg_init) sreg_init.
Proof.
  split; [apply (Reach0 U0 2)|done| |apply (bool_decide_unpack _); by vm_compute].
  intros [|b] x Hx; cbn in Hx; simplify_eq; cbn; (split; [done|]; split; [done|]; split; [done|]; by exists sreg_init).
Qed.
Definition ops100t : list cop := [CRec 0 (KCreate [(1%N, Val 1)]); CRec 0 (KCreate [(1%N, Val 2)]); CFlush;
  CRec 0 (KDestroy h0); CRec 0 (KDestroy h0); CRec 0 (KSet h0 2%N (Val 10)); CRec 0 (KSet h1 2%N (Val 10)); CFlush; CRec 0 (KSet h1 2%N (Val 20))].
Definition os100t : list (outcome (option handle)) :=
  [Ok (Some h0); Ok (Some h1); Ok None; Ok (Some h0); Ok (Some h0); Ok (Some h0); Ok (Some h1); Throw EntityNotFound; Ok (Some h1)].
Definition os100r : list (outcome (option handle)) := [Throw EntityNotFound; Ok None; Ok None; Ok None; Ok None; Ok None; Ok None; Ok None].
Example ex_C100t_run : run_cops U0 0 (ops100t ++ replicate 8 CFlush) cs100 =
  ((run_cops U0 0 (ops100t ++ replicate 8 CFlush) cs100).1, os100t ++ os100r).
Proof. by vm_compute. Qed.
Example ex_C100t_perm : all_permitted U0 1 (ops100t ++ replicate 8 CFlush). Proof. permits. Qed.
Example ex_C100_one_thread := C100_one_thread_partial U0 U0_wf 0 0 cs100 (replicate 2 sreg_init) sreg_init (ops100t ++ replicate 8 CFlush) _ (os100t ++ os100r)
  ex_C100_ready ltac:(by vm_compute) eq_refl ex_C100t_run ex_C100t_perm.
Example ex_C100_retry := C100_retry_partial U0 U0_wf 0 0 cs100 (replicate 2 sreg_init) sreg_init ops100t _ os100t os100r 7
  ex_C100_ready ltac:(by vm_compute) ex_C100t_run eq_refl ex_C100t_perm ltac:(cbn; lia).
Example ex_C100_count : accepted os100t = 7. Proof. done. Qed.

Print Assumptions C100_once_partial.
Print Assumptions C100_frames_partial.
Print Assumptions C100_one_thread_partial.
Print Assumptions C100_retry_partial.
Print Assumptions C100_refuted.
