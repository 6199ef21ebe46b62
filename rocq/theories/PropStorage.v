(** C17, C18, C22, C26: undefined behaviour, failed calls, and lifetimes. *)
From Verif Require Import Base Bits Layout PropLayout HandlePool HandleSpec HandlePoolProofs SparseMap SparseMapProofs
  HashTable HashTableProofs HashTableMap Bitset BitsetProofs ComponentSet ComponentSetProofs
  Chunk ChunkProofs Archetype ArchetypeProofs Registry RegistryStore RegistryProofs View ViewProofs RegSpec RegSpecProofs
  RegObs RegRun RegTrap PropRegistry PropView.

Section props.
Context (U : universe).
Hypothesis HU : u_wf U.

(** Histories during which every archetype has at most two chunks and no copy fails. *)
Inductive small_reach : nat → list registry → list sreg → Prop :=
| SmallReach0 k : small_reach 0 (replicate k rg_init) (replicate k sreg_init)
| SmallReachS n rs ss op rs' o ss' : small_reach n rs ss → spermitted U ss op → run_sop U op rs = (rs', o) → snext U ss op o ss' →
    Forall2 (agrees U) rs' ss' → Forall small rs' → Forall (λ s, sr_leaky s = false) ss' → small_reach (S n) rs' ss'.

Lemma small_reach_reach n rs ss : small_reach n rs ss → reach U n rs ss.
Proof. induction 1; [constructor|by eapply ReachS]. Qed.

Lemma small_reach_holes n rs ss : small_reach n rs ss → below_wrap (2 * n) → Forall hole_free rs ∧ Forall small rs.
Proof.
  induction 1 as [k|n rs ss op rs' o ss' Hr IH Hp Hrun Hn Ha Hs Hl]; intros Hbw.
  - split; apply Forall_replicate; intros a ar; cbn; by rewrite lookup_nil.
  - destruct IH as [IHh IHs]; [by apply bw_half|]. split; [|done].
    destruct (reach_step U HU _ _ _ _ _ _ (small_reach_reach _ _ _ Hr) Hbw Hp Hrun) as [(ss1 & Hn1 & Hr1 & Hst)|[-> _]].
    2:{ by apply snext_no_ub in Hn. }
    pose proof (reach_sys U HU _ _ _ (small_reach_reach _ _ _ Hr) (bw_half _ Hbw)) as Hsys.
    assert (length rs' = length rs) as Hlen.
    { destruct op; cbn in Hrun; unfold on_reg, on_regs in Hrun;
        repeat (case_match; simplify_eq; rewrite ?insert_length; try done). }
    assert (ss1 = ss') as ->.
    { eapply snext_det; [exact Hsys|exact Hn1|exact Hn| |exact Ha]. eapply sys_agrees; [done|]. by eapply reach_sys. }
    apply Forall_lookup. intros i r' Hi'. pose proof (lookup_lt_Some _ _ _ Hi') as Hlt. rewrite Hlen in Hlt.
    apply lookup_lt_is_Some in Hlt as [r Hi].
    destruct (Forall2_lookup_l _ _ _ _ _ Ha Hi') as (s' & Hs' & _).
    eapply (Hst i r r'); [done..|by eapply (Forall_lookup_1 _ _ _ _ Hl)|by eapply (Forall_lookup_1 _ _ _ _ IHh)|by eapply (Forall_lookup_1 _ _ _ _ IHs)].
Qed.

(** C17: what holds.  Missing: archetypes of three or more chunks, and failed copies. *)
Theorem C17_two_chunks_partial n rs ss op rs' o : small_reach n rs ss → below_wrap (2 * S n) →
  Forall (λ s, sr_failed s = false) ss → spermitted U ss op → run_sop U op rs = (rs', o) → o ≠ UB.
Proof.
  intros Hr Hbw Hf Hp Hrun ->. destruct (small_reach_holes _ _ _ Hr (bw_half _ Hbw)) as [Hh _].
  destruct (reach_step U HU _ _ _ _ _ _ (small_reach_reach _ _ _ Hr) Hbw Hp Hrun) as [(ss' & Hn & _)|[_ Hz]].
  { by apply snext_no_ub in Hn. }
  assert (∀ (i : nat) r, rs !! i = Some r → hole_free r) as Hh' by (by apply Forall_lookup).
  assert (∀ (i : nat) s, ss !! i = Some s → sr_failed s = false) as Hf' by (by apply Forall_lookup).
  destruct op as [i op|i h j|i h j ph|i h j|i h j ph]; cbn in Hz; try done.
  - destruct Hz as (r & s & Hi & Hs & Hz). specialize (Hh' _ _ Hi). specialize (Hf' _ _ Hs).
    destruct op; cbn in Hz; try done; destruct Hz as [Hz1 Hz2]; try congruence; by apply (trapped_hole _ _ Hz1).
  - destruct Hz as (r & s & Hi & Hs & Hz & _). by apply (trapped_hole _ _ Hz), (Hh' i).
  - destruct Hz as (r & s & Hi & Hs & Hz & _). by apply (trapped_hole _ _ Hz), (Hh' i).
Qed.

(** Whatever the history, undefined behaviour needs a hole, or a view after insufficient_chunk_size. *)
Theorem C17_only_hazards n rs ss op rs' : reach U n rs ss → below_wrap (2 * S n) → spermitted U ss op →
  run_sop U op rs = (rs', UB) → hazard rs ss op.
Proof.
  intros Hr Hbw Hp Hrun. destruct (C12_refinement U HU _ _ _ _ _ _ Hr Hbw Hp Hrun) as [(ss' & Hn & _)|[_ Hz]]; [|done]. by apply snext_no_ub in Hn.
Qed.

(** And every one of these calls except single is undefined, unless it is rejected with insufficient_chunk_size
    before the entity is moved. *)
Lemma hazard_not_ok n rs ss op x : reach U n rs ss → below_wrap (2 * n) → hazard rs ss op → (∀ i rq, op ≠ At i (OSingle rq)) →
  (run_sop U op rs).2 ≠ Ok x.
Proof.
  intros Hr Hbw Hz Hns E.
  assert (∀ i r s h m c, rs !! i = Some r → ss !! i = Some s → sr_world s !! h = Some m → (rg_has h [c] r).2 = Ok (bool_decide (is_Some (m !! c)))) as Hhas.
  { intros i r s h m c Hi Hs Hm. destruct (C10_get_has U HU n r s h m ltac:(by exists rs, ss, i) Hbw Hm) as (_ & Hh & _).
    rewrite Hh. cbn [snd]. f_equal. apply bool_decide_ext. by rewrite Forall_singleton. }
  destruct op as [i op| | |i h j|i h j ph]; [|done|done| |].
  - destruct Hz as (r & s & Hi & Hs & Hz). cbn in E. unfold on_reg in E. rewrite Hi in E.
    assert ((run_rop U op r).2 = Ok x) as E' by (destruct (run_rop U op r); done). clear E.
    destruct op as [| h | h c v | h c v | h c | | | | | | | | | | rq f | rq]; cbn [rhazard] in Hz; try done; cbn [run_rop] in E'; unfold mapM, bind in E'.
    + destruct Hz as [Ht _]. pose proof (destroy_trapped U r h Ht) as E. destruct (rg_destroy U h r) as [r1 o]. cbn in E. by subst o.
    + destruct Hz as (Ht & m & Hm & Hc). pose proof (λ y, set_trapped U r h c v y Ht) as E. rewrite (Hhas _ _ _ _ _ _ Hi Hs Hm), Hc in E.
      destruct (rg_set U h c v r) as [r1 [y|e|]]; [|done|done]. by apply (E y).
    + destruct Hz as (Ht & m & Hm & Hc). pose proof (λ y, get_or_insert_trapped U r h c v y Ht) as E. rewrite (Hhas _ _ _ _ _ _ Hi Hs Hm), Hc in E.
      destruct (rg_get_or_insert U h c v r) as [r1 [y|e|]]; [|done|done]. by apply (E y).
    + destruct Hz as (Ht & m & Hm & Hc). pose proof (λ y, remove_trapped U r h c y Ht) as E. rewrite (Hhas _ _ _ _ _ _ Hi Hs Hm) in E. rewrite bool_decide_eq_true_2 in E by done.
      destruct (rg_remove U h c r) as [r1 [y|e|]]; [|done|done]. by apply (E y).
    + destruct Hz as [Ht _]. pose proof (λ y, each_null U r rq f y Ht) as E. destruct (rg_each U rq f r) as [r1 [y|e|]]; [|done|done]. by apply (E y).
    + by apply (Hns i rq).
  - destruct Hz as (r & s & Hi & Hs & Ht & _). cbn in E. unfold on_regs in E. rewrite Hi in E. destruct (rs !! j) as [r2|]; [|done].
    unfold mapM, bind, rg_move in E. unfold bind, on_snd in E. cbn [fst snd] in E. destruct (rg_allocate r2) as [r3 [ph|e|]]; [|done|done].
    pose proof (λ y, move_into_trapped U r r3 h ph y Ht) as E'. destruct (rg_move_into U h ph (r, r3)) as [[? ?] [y|e|]]; [by apply (E' y)|done|done].
  - destruct Hz as (r & s & Hi & Hs & Ht & _). cbn in E. unfold on_regs in E. rewrite Hi in E. destruct (rs !! j) as [r2|]; [|done].
    unfold mapM, bind in E. pose proof (λ y, move_into_trapped U r r2 h ph y Ht) as E'.
    destruct (rg_move_into U h ph (r, r2)) as [[? ?] [y|e|]]; [by apply (E' y)|done|done].
Qed.

Theorem C17_exact n rs ss op : reach U n rs ss → below_wrap (2 * S n) → spermitted U ss op → (∀ i rq, op ≠ At i (OSingle rq)) →
  ((run_sop U op rs).2 = UB ↔ hazard rs ss op ∧ (run_sop U op rs).2 ≠ Throw InsufficientChunkSize).
Proof.
  intros Hr Hbw Hp Hns. split.
  - intros E. split; [|by rewrite E]. destruct (run_sop U op rs) as [rs' o] eqn:Hrun. cbn in E. subst o. by eapply C17_only_hazards.
  - intros [Hz Hne]. pose proof (λ x, hazard_not_ok n rs ss op x Hr (bw_half _ Hbw) Hz Hns) as Hno.
    destruct (run_sop U op rs) as [rs' o] eqn:Hrun. cbn [snd] in *.
    destruct (C12_refinement U HU _ _ _ _ _ _ Hr Hbw Hp Hrun) as [(ss' & Hn & _)|[? _]]; [|done]. exfalso.
    destruct op as [i op| | |i h j|i h j ph]; [|done|done| |].
    + destruct Hz as (r & s & Hi & Hs & Hz), Hn as (s0 & s1 & Hs0 & Hn & _). rewrite Hs in Hs0. injection Hs0 as <-. destruct Hp as (s0 & Hs0 & Hp). rewrite Hs in Hs0. injection Hs0 as <-.
      destruct op as [| h | h c v | h c v | h c | | | | | | | | | | rq f | rq]; cbn [rhazard] in Hz; try done; cbn [rnext] in Hn.
      * destruct Hz as (_ & m & Hm). rewrite Hm in Hn. destruct Hn as [-> _]. by eapply Hno.
      * destruct Hz as (_ & m & Hm & Hc). rewrite Hm in Hn. destruct v as [v|]; [destruct Hn as [[-> _]|[-> _]]; [by eapply Hno|done]|].
        destruct Hp as (_ & Hp). destruct (Hp eq_refl _ Hm). congruence.
      * destruct Hz as (_ & m & Hm & Hc). rewrite Hm, Hc in Hn. destruct v as [v|]; [|done]. destruct Hn as [[-> _]|[-> _]]; [by eapply Hno|done].
      * destruct Hz as (_ & m & Hm & Hc). rewrite Hm in Hn. destruct Hn as [[-> _]|[-> _]]; [by eapply Hno|done].
      * destruct Hn as (es & w' & _ & -> & _). by eapply Hno.
      * by apply (Hns i rq).
    + destruct Hz as (r & s & Hi & Hs & _ & m & Hm), Hn as (a & b & Ha & Hb & Hn). rewrite Hs in Ha. injection Ha as <-. rewrite Hm in Hn.
      destruct Hn as (g & _ & -> & _). by eapply Hno.
    + destruct Hz as (r & s & Hi & Hs & _ & m & Hm), Hn as (a & b & Ha & Hb & Hn). rewrite Hs in Ha. injection Ha as <-. rewrite Hm in Hn.
      destruct Hn as (-> & _). by eapply Hno.
Qed.

(** C18: what holds.  Missing: views after the failure; handle reuse (the failed creation keeps an id). *)
Lemma rnext_fail s op o s' : rnext U (fail s) op o s' → ∃ s2, rnext U s op o s2 ∧ s' = fail s2.
Proof.
  intros H. destruct op; cbn in H;
    try match goal with H : context [sr_world s !! ?h] |- _ => destruct (sr_world s !! h) as [m|] eqn:Hw end; cbn; rewrite ?Hw;
    try (destruct H as [H1 ->]; exists s; by split).
  - destruct H as [(h & H1 & H2 & ->)|(H1 & H2 & ->)]; eexists; (split; [eauto|done]).
  - destruct H as [H1 ->]. eexists; (split; [eauto|done]).
  - destruct x; [|destruct H as [H1 ->]; eauto]. destruct H as [[H1 ->]|(H1 & H2 & H3 & ->)]; eexists; (split; [eauto|done]).
  - destruct (m !! c); [destruct H as [H1 ->]; eauto|]. destruct x; [|done]. destruct H as [[H1 ->]|(H1 & H2 & ->)]; eexists; (split; [eauto|done]).
  - destruct H as [[H1 ->]|(H1 & H2 & H3 & ->)]; eexists; (split; [eauto|done]).
  - destruct H as (b & H1 & H2 & ->). eexists; (split; [eauto|done]).
  - destruct H as (l & H1 & H2 & H3 & ->). eexists; (split; [eauto 10|done]).
  - destruct H as (b & H1 & H2 & H3 & ->). eexists; (split; [eauto 10|done]).
  - destruct H as [(H1 & ph & H2 & H3 & ->)|(H1 & H2 & ->)]; eexists; (split; [eauto 10|done]).
  - destruct H as [(H1 & H2 & ->)|(H1 & H2 & ->)]; eexists; (split; [eauto 10|done]).
  - destruct H as (h & H1 & H2 & ->). eexists; (split; [eauto|done]).
  - destruct H as [H1 ->]. eexists; (split; [eauto|done]).
  - destruct H as (es & w' & H1 & H2 & H3 & ->). eexists; (split; [eauto 10|done]).
  - destruct H as [-> H1]. eexists; (split; [eauto|done]).
Qed.

Theorem C18_failed_call_partial n r s op r' : reached U n r s → below_wrap (2 * S (S n)) → permitted U s op →
  run_rop U op r = (r', Throw InsufficientChunkSize) →
  all_same U s r r' ∧ reached U (S n) r' (fail s) ∧
  ∀ op2 r2 o2, permitted U s op2 → run_rop U op2 r' = (r2, o2) →
    (∃ s2, rnext U s op2 o2 s2 ∧ reached U (S (S n)) r2 (fail s2)) ∨ (o2 = UB ∧ rhazard r' (fail s) op2).
Proof.
  intros Hr Hbw Hp E. pose proof (bw_half _ Hbw) as Hbw'.
  destruct (reached_step U HU _ _ _ op _ _ Hr Hbw' Hp E) as [(s' & Hn & Hr' & _)|[? _]]; [|done].
  assert (s' = fail s) as ->.
  { assert (∀ h, ¬ missing s h (Throw InsufficientChunkSize)) as Hmi. { intros h (e & [= <-] & _ & _ & [?|?]); done. }
    destruct op; cbn in Hn; try (destruct (sr_world s !! h) as [m|]; [|destruct Hn as [Hn _]; by apply Hmi in Hn]).
    all: try (by destruct Hn as [? _]). all: try (by destruct Hn as (? & ? & _)).
    - destruct Hn as [(h & _ & ? & _)|(_ & _ & ->)]; done.
    - destruct x; [|by destruct Hn]. destruct Hn as [[? _]|(_ & _ & _ & ->)]; done.
    - destruct (m !! c); [by destruct Hn|]. destruct x; [|done]. destruct Hn as [[? _]|(_ & _ & ->)]; done.
    - destruct Hn as [[? _]|(_ & _ & _ & ->)]; done.
    - destruct Hn as [Hn _]. by destruct (m !! c).
    - destruct Hn as [(_ & ph & _ & ? & _)|(_ & ? & _)]; done.
    - destruct Hn as [(_ & ? & _)|(_ & ? & _)]; done.
    - destruct Hn as (h & _ & ? & _); done.
    - destruct Hn as (es & w' & _ & ? & _); done.
    - destruct Hn as [_ [[? _]|(h & m & _ & _ & ?)]]; done. }
  split; [|split; [done|]].
  - eapply all_from; [by eapply (reached_shows U HU), bw_half, Hbw'|by eapply (reached_shows U HU)| |]; done.
  - intros op2 r2 o2 Hp2 E2. assert (permitted U (fail s) op2) as Hp2' by (by destruct op2).
    destruct (reached_step U HU _ _ _ op2 _ _ Hr' Hbw Hp2' E2) as [(s2 & Hn2 & Hr2 & _)|?]; [|by right]. left.
    apply rnext_fail in Hn2 as (s3 & Hn3 & ->). eauto.
Qed.

(** C22: what holds.  Missing: constructors that throw, and the objects of failed copies. *)
Theorem C22_destructor n r s : reached U n r s → below_wrap (2 * n) →
  ∃ k, rg_destruct r = Ok k ∧ (sr_leaky s = false → k = 0).
Proof.
  intros Hr Hbw. destruct (reached_ri U HU _ _ _ Hr Hbw) as (iss & hp & [_ H _]).
  destruct (destruct_spec U _ _ _ _ _ _ _ _ H) as (k & E & Hk). exists k. split; [done|]. intros Hl. apply Hk. by rewrite Hl.
Qed.

(** C26: what holds: nothing observable about existing handles changes.  Missing: the id and the objects. *)
Definition copies (op : sop) : bool :=
  match op with At _ (OClone _ | OCloneInto _ _) | Copy _ _ _ | CopyInto _ _ _ _ | Move _ _ _ | MoveInto _ _ _ _ => true | _ => false end.
Theorem C26_failed_copy_partial n rs ss op rs' e : reach U n rs ss → below_wrap (2 * S n) → spermitted U ss op → copies op = true →
  run_sop U op rs = (rs', Throw e) →
  ∀ (i : nat) r r' s, rs !! i = Some r → rs' !! i = Some r' → ss !! i = Some s → all_same U s r r'.
Proof.
  intros Hr Hbw Hp Hc Hrun i r r' s Hi Hi' Hs.
  destruct (C12_refinement U HU _ _ _ _ _ _ Hr Hbw Hp Hrun) as [(ss' & Hn & Hr')|[? _]]; [|done].
  assert (∃ s', ss' !! i = Some s' ∧ (s' = s ∨ s' = leak s)) as (s' & Hs' & Es).
  { assert (∀ (j : nat) b, ss !! j = Some b → ∃ s', <[j := leak b]> ss !! i = Some s' ∧ (s' = s ∨ s' = leak s)) as Hlk.
    { intros j b Hb. destruct (decide (i = j)) as [<-|Hne].
      - rewrite list_lookup_insert by (by eapply lookup_lt_Some). rewrite Hs in Hb. injection Hb as <-. eauto.
      - rewrite list_lookup_insert_ne by done. eauto. }
    destruct op as [j op|j h k|j h k ph|j h k|j h k ph]; cbn in Hn.
    - destruct Hn as (s1 & s1' & Hs1 & Hn & ->). assert (s1' = s1 ∨ s1' = leak s1) as [->| ->].
      { destruct op; cbn in Hc; try done; cbn in Hn; (destruct (sr_world s1 !! h) as [m|]; [|destruct Hn as [_ ->]; by left]).
        - destruct Hn as [(_ & ph & _ & ? & _)|(_ & _ & ->)]; [done|by right].
        - destruct Hn as [(_ & ? & _)|(_ & _ & ->)]; [done|by right]. }
      + rewrite list_insert_id by done. eauto.
      + by apply Hlk.
    - destruct Hn as (a & b & Ha & Hb & Hn). destruct (sr_world a !! h); [|destruct Hn as [_ ->]; eauto].
      destruct Hn as [(_ & ph & _ & ? & _)|(_ & _ & ->)]; [done|]. by apply Hlk.
    - destruct Hn as (a & b & Ha & Hb & Hn). destruct (sr_world a !! h); [|destruct Hn as [_ ->]; eauto].
      destruct Hn as [(_ & ? & _)|(_ & _ & ->)]; [done|]. by apply Hlk.
    - destruct Hn as (a & b & Ha & Hb & Hn). destruct (sr_world a !! h); [|destruct Hn as [_ ->]; eauto]. by destruct Hn as (ph & _ & ? & _).
    - destruct Hn as (a & b & Ha & Hb & Hn). destruct (sr_world a !! h); [|destruct Hn as [_ ->]; eauto]. by destruct Hn as (? & _). }
  assert (reached U n r s) as Hra by (by exists rs, ss, i). assert (reached U (S n) r' s') as Hrb by (by exists rs', ss', i).
  eapply all_from; [by eapply (reached_shows U HU), bw_half, Hbw|by eapply (reached_shows U HU)| |]; by destruct Es as [->| ->].
Qed.
End props.

(** * Refutations and examples *)
Definition final (k : nat) (ops : list sop) : option (list registry * list sreg) := prog U0 ops (replicate k rg_init) (replicate k sreg_init).
Definition regs_of (k : nat) (ops : list sop) : list registry := default [] (fst <$> final k ops).
Definition recs_of (k : nat) (ops : list sop) : list sreg := default [] (snd <$> final k ops).
Lemma final_reach k ops : final k ops ≠ None → below_wrap (2 * length ops) → reach U0 (length ops) (regs_of k ops) (recs_of k ops).
Proof.
  intros H Hbw. apply (prog_reach U0 U0_wf k ops); [done|]. unfold regs_of, recs_of, final in *. by destruct (prog _ _ _ _) as [[??]|].
Qed.

(** C17: entities with an 8000 byte component fill a chunk by two.  Five are created.  Destroying the fourth and
    the third only shrinks the second chunk, because each is the last row of its chunk; destroying the fifth drops
    the third chunk, and the second, now last, is empty.  Destroying the first entity takes a row out of it. *)
Definition big (n : N) : sop := At 0 (OCreate [(6%N, Val n)]).
Definition ops17 : list sop :=
  [big 0; big 1; big 2; big 3; big 4; At 0 (ODestroy (Handle 3 0)); At 0 (ODestroy (Handle 2 0)); At 0 (ODestroy (Handle 4 0))].

Theorem C17_destroy_refuted : ∃ n rs ss op, reach U0 n rs ss ∧ below_wrap (2 * S n) ∧ Forall (λ s, sr_failed s = false ∧ sr_leaky s = false) ss ∧
  spermitted U0 ss op ∧ (run_sop U0 op rs).2 = UB.
Proof.
  exists (length ops17), (regs_of 1 ops17), (recs_of 1 ops17), (At 0 (ODestroy (Handle 0 0))).
  split; [apply final_reach; [by vm_compute|by vm_compute]|]. split; [by vm_compute|].
  split; [apply (bool_decide_unpack _); by vm_compute|]. split; [apply (spermitted_ok U0); by vm_compute|by vm_compute].
Qed.

(** In this state the first entity is trapped, and the second, in the last row of its chunk, is not. *)
Example ex_C17_exact : hazard (regs_of 1 ops17) (recs_of 1 ops17) (At 0 (ODestroy (Handle 0 0))) ∧
  ¬ hazard (regs_of 1 ops17) (recs_of 1 ops17) (At 0 (ODestroy (Handle 1 0))).
Proof.
  assert (reach U0 (length ops17) (regs_of 1 ops17) (recs_of 1 ops17)) as Hr by (apply final_reach; [by vm_compute|by vm_compute]).
  assert (below_wrap (2 * S (length ops17))) as Hbw by (by vm_compute).
  split.
  - eapply (C17_exact U0 U0_wf _ _ _ _ Hr Hbw); [apply (spermitted_ok U0); by vm_compute|done|by vm_compute].
  - intros Hz. assert ((run_sop U0 (At 0 (ODestroy (Handle 1 0))) (regs_of 1 ops17)).2 = UB) as E; [|by vm_compute in E].
    eapply (C17_exact U0 U0_wf _ _ _ _ Hr Hbw); [apply (spermitted_ok U0); by vm_compute|done|]. split; [done|by vm_compute].
Qed.

(** A copy that fails when the last chunk is full leaves an empty chunk behind. *)
Definition ops17c : list sop :=
  [At 0 (OCreate [(5%N, Val 50); (6%N, Val 60)]); At 0 (OCreate [(5%N, Val 51); (6%N, Val 61)]); At 0 (OClone (Handle 0 0))].
Theorem C17_failed_clone_refuted : ∃ n rs ss op, reach U0 n rs ss ∧ below_wrap (2 * S n) ∧ Forall small rs ∧ Forall (λ s, sr_failed s = false) ss ∧
  spermitted U0 ss op ∧ (run_sop U0 op rs).2 = UB.
Proof.
  exists (length ops17c), (regs_of 1 ops17c), (recs_of 1 ops17c), (At 0 (ODestroy (Handle 0 0))).
  split; [apply final_reach; [by vm_compute|by vm_compute]|]. split; [by vm_compute|].
  split. { assert (forallb (λ r, forallb (λ a, Nat.leb (length (ar_chunks a)) 2) (rg_heap r)) (regs_of 1 ops17c) = true) as H by (by vm_compute).
    rewrite forallb_forall in H. apply Forall_forall. intros r Hr a ar Ha. apply elem_of_list_In, H in Hr. rewrite forallb_forall in Hr.
    by apply Nat.leb_le, Hr, elem_of_list_In, (elem_of_list_lookup_2 _ a). }
  split; [apply (bool_decide_unpack _); by vm_compute|]. split; [apply (spermitted_ok U0); by vm_compute|by vm_compute].
Qed.

(** C18: after a creation that does not fit, iterating is undefined behaviour, and a handle that was never
    handed out is alive. *)
Definition ops18 : list sop := [At 0 (OCreate [(1%N, Val 1)])].
Definition r18 : registry := default rg_init (regs_of 1 ops18 !! 0).
Definition s18 : sreg := default sreg_init (recs_of 1 ops18 !! 0).
Example ex_reached18 : reached U0 1 r18 s18.
Proof. exists (regs_of 1 ops18), (recs_of 1 ops18), 0. split; [apply (final_reach 1 ops18); by vm_compute|]. by vm_compute. Qed.

Theorem C18_view_refuted : ∃ n r s args r' rq, reached U0 n r s ∧ permitted U0 s (OCreate args) ∧
  rg_create U0 args r = (r', Throw InsufficientChunkSize) ∧ (rg_each U0 rq look r).2 ≠ UB ∧ (rg_each U0 rq look r').2 = UB ∧ (rg_single U0 rq r').2 = UB.
Proof.
  exists 1, r18, s18, [(7%N, Val 7)], (rg_create U0 [(7%N, Val 7)] r18).1, [VReq 1 false]. split; [apply ex_reached18|].
  split; [apply (permitted_ok U0); by vm_compute|]. by vm_compute.
Qed.
Theorem C18_handle_refuted : ∃ n r s args r' h, reached U0 n r s ∧ permitted U0 s (OCreate args) ∧
  rg_create U0 args r = (r', Throw InsufficientChunkSize) ∧ h ∉ sr_issued s ∧ rg_alive r h = false ∧ rg_alive r' h = true ∧
  (rg_get h 1 r').2 = Throw OutOfRange ∧ (rg_create U0 [(1%N, Val 1)] r).2 = Ok h ∧ (rg_create U0 [(1%N, Val 1)] r').2 ≠ Ok h.
Proof.
  exists 1, r18, s18, [(7%N, Val 7)], (rg_create U0 [(7%N, Val 7)] r18).1, (Handle 1 0). split; [apply ex_reached18|].
  split; [apply (permitted_ok U0); by vm_compute|]. split; [by vm_compute|]. split; [apply (bool_decide_unpack _); by vm_compute|]. by vm_compute.
Qed.
Example ex_C18_hyps : permitted U0 s18 (OCreate [(7%N, Val 7)]) ∧ (run_rop U0 (OCreate [(7%N, Val 7)]) r18).2 = Throw InsufficientChunkSize ∧
  permitted U0 s18 (OSet (Handle 0 0) 7 (CtorOk (Val 7))) ∧ (run_rop U0 (OSet (Handle 0 0) 7 (CtorOk (Val 7))) r18).2 = Throw InsufficientChunkSize.
Proof. split; [apply (permitted_ok U0); by vm_compute|]. split; [by vm_compute|]. split; [apply (permitted_ok U0); by vm_compute|by vm_compute]. Qed.

(** C22: a component whose constructor throws stays registered although it was never constructed; reading it or
    destroying the entity acts on raw memory. *)
Theorem C22_throwing_constructor_refuted : ∃ n r s h c r', reached U0 n r s ∧ is_Some (sr_world s !! h) ∧
  rg_set U0 h c CtorThrows r = (r', Throw CtorThrew) ∧ (rg_has h [c] r').2 = Ok true ∧ (rg_get h c r').2 = UB ∧ (rg_destroy U0 h r').2 = UB ∧
  rg_destruct r' = UB.
Proof.
  exists 1, r18, s18, (Handle 0 0), 2%N, (rg_set U0 (Handle 0 0) 2 CtorThrows r18).1. split; [apply ex_reached18|].
  split; [apply (bool_decide_unpack _); by vm_compute|]. by vm_compute.
Qed.
(** The objects copied before a copy fails are never destroyed. *)
Definition ops22 : list sop := [At 0 (OCreate [(1%N, Val 1); (5%N, Val 5)]); At 0 (OClone (Handle 0 0))].
Theorem C22_failed_copy_refuted : ∃ n r s, reached U0 n r s ∧ sr_failed s = false ∧ ∃ k, rg_destruct r = Ok (S k).
Proof.
  exists 2, (default rg_init (regs_of 1 ops22 !! 0)), (default sreg_init (recs_of 1 ops22 !! 0)).
  split; [exists (regs_of 1 ops22), (recs_of 1 ops22), 0; split; [apply (final_reach 1 ops22); by vm_compute|by vm_compute]|].
  split; [by vm_compute|]. eexists. by vm_compute.
Qed.
Example ex_C22 : rg_destruct r0 = Ok 0 ∧ sr_leaky s0 = false. Proof. by vm_compute. Qed.

(** C26: cloning a dead entity, or one with a component that cannot be copied, uses up a handle. *)
Theorem C26_id_refuted :
  (∃ n r s h r' g, reached U0 n r s ∧ permitted U0 s (OClone h) ∧ rg_clone U0 h r = (r', Throw EntityNotFound) ∧
     g ∉ sr_issued s ∧ (rg_create U0 [(1%N, Val 1)] r).2 = Ok g ∧ (rg_create U0 [(1%N, Val 1)] r').2 ≠ Ok g) ∧
  (∃ n r s h r' g, reached U0 n r s ∧ permitted U0 s (OClone h) ∧ rg_clone U0 h r = (r', Throw InvalidArgument) ∧
     rg_alive r g = false ∧ rg_alive r' g = true ∧ (rg_create U0 [(1%N, Val 1)] r).2 = Ok g ∧ (rg_create U0 [(1%N, Val 1)] r').2 ≠ Ok g).
Proof.
  split.
  - exists 6, r0, s0, e1, (rg_clone U0 e1 r0).1, (Handle 1 1). split; [apply ex_reached|].
    split; [apply (permitted_ok U0); by vm_compute|]. split; [by vm_compute|]. split; [apply (bool_decide_unpack _); by vm_compute|]. by vm_compute.
  - exists 6, r1, s1, e0, (rg_clone U0 e0 r1).1, (Handle 1 0). split; [apply ex_reached1|].
    split; [apply (permitted_ok U0); by vm_compute|]. by vm_compute.
Qed.
Theorem C26_object_refuted : ∃ n r s h r', reached U0 n r s ∧ permitted U0 s (OClone h) ∧ rg_clone U0 h r = (r', Throw InvalidArgument) ∧
  rg_destruct r = Ok 0 ∧ ∃ k, rg_destruct r' = Ok (S k).
Proof.
  exists 1, (default rg_init (regs_of 1 (take 1 ops22) !! 0)), (default sreg_init (recs_of 1 (take 1 ops22) !! 0)), (Handle 0 0),
    (default rg_init (regs_of 1 ops22 !! 0)).
  split; [exists (regs_of 1 (take 1 ops22)), (recs_of 1 (take 1 ops22)), 0; split; [apply (final_reach 1 (take 1 ops22)); by vm_compute|by vm_compute]|].
  split; [apply (permitted_ok U0); by vm_compute|]. split; [by vm_compute|]. split; [by vm_compute|]. eexists. by vm_compute.
Qed.
Example ex_C26_hyps : spermitted U0 ss0 (Move 0 e1 1) ∧ (run_sop U0 (Move 0 e1 1) rs0).2 = Throw EntityNotFound ∧
  spermitted U0 ss0 (Copy 1 e0 0) ∧ (run_sop U0 (Copy 1 e0 0) rs0).2 = Throw InvalidArgument.
Proof. split; [apply (spermitted_ok U0); by vm_compute|]. split; [by vm_compute|]. split; [apply (spermitted_ok U0); by vm_compute|by vm_compute]. Qed.

(** C17: a history within two chunks that empties the second chunk. *)
Definition small_b (r : registry) : bool := forallb (λ a, Nat.leb (length (ar_chunks a)) 2) (rg_heap r).
Lemma small_ok r : small_b r = true → small r.
Proof. unfold small_b. rewrite forallb_forall. intros H a ar Ha. by apply Nat.leb_le, H, elem_of_list_In, (elem_of_list_lookup_2 _ a). Qed.
Definition ops17s : list sop := [big 0; big 1; big 2; At 0 (ODestroy (Handle 1 0)); At 0 (ODestroy (Handle 2 0)); big 3; At 0 (ODestroy (Handle 0 0))].
Lemma small_prefixes k ops : (∀ i : nat, i ≤ length ops → final k (take i ops) ≠ None ∧ forallb small_b (regs_of k (take i ops)) = true ∧
    forallb (λ s, negb (sr_leaky s)) (recs_of k (take i ops)) = true) → below_wrap (2 * length ops) →
  small_reach U0 (length ops) (regs_of k ops) (recs_of k ops).
Proof.
  intros H Hbw. assert (∀ i : nat, i ≤ length ops → small_reach U0 i (regs_of k (take i ops)) (recs_of k (take i ops))) as Hi.
  2:{ specialize (Hi (length ops)). rewrite firstn_all in Hi. by apply Hi. }
  induction i as [|i IH]; intros Hi; [constructor|].
  specialize (IH ltac:(lia)). destruct (H (S i) Hi) as (H1 & H2 & H3). destruct (lookup_lt_is_Some_2 ops i Hi) as [op Hop].
  rewrite (take_S_r _ _ _ Hop) in *.
  assert (∃ o, spermitted U0 (recs_of k (take i ops)) op ∧ run_sop U0 op (regs_of k (take i ops)) = (regs_of k (take i ops ++ [op]), o) ∧
    snext U0 (recs_of k (take i ops)) op o (recs_of k (take i ops ++ [op]))) as (o & Hp & Hrun & Hn).
  { destruct (H i ltac:(lia)) as (Hf & _). assert (reach U0 i (regs_of k (take i ops)) (recs_of k (take i ops))) as Hr by (by apply small_reach_reach).
    revert H1 Hf Hr. unfold regs_of, recs_of, final. generalize (take i ops). intros l.
    assert (∀ l rs ss, prog U0 (l ++ [op]) rs ss = '(rs1, ss1) ← prog U0 l rs ss; prog U0 [op] rs1 ss1) as Happ.
    { clear. induction l as [|x l IH]; intros rs ss; [done|]. cbn [app prog]. destruct (spermitted_b U0 ss x && snot_view x); [|done].
      destruct (run_sop U0 x rs) as [rs' o]. destruct (is_ub o); [done|]. apply IH. }
    rewrite Happ. destruct (prog U0 l _ _) as [[rs ss]|]; [|done]. cbn. destruct (spermitted_b U0 ss op && snot_view op) eqn:Hb; [|done].
    apply andb_true_iff in Hb as [Hb%spermitted_ok Hv]. destruct (run_sop U0 op rs) as [rs' o] eqn:Hrun. destruct (is_ub o) eqn:Hu; [done|]. cbn.
    intros _ _ Hr. exists o. split; [done|]. split; [done|].
    destruct (C12_refinement U0 U0_wf _ _ _ _ _ _ Hr ltac:(unfold below_wrap in *; lia) Hb Hrun) as [(ss' & Hn & _)|[-> _]]; [|done].
    by rewrite <- (sstep_ok' _ _ _ _ _ Hv Hn). }
  assert (reach U0 (S i) (regs_of k (take i ops ++ [op])) (recs_of k (take i ops ++ [op]))) as Hr'.
  { rewrite <- (take_S_r _ _ _ Hop). replace (S i) with (length (take (S i) ops)) at 1 by (rewrite take_length; lia). apply final_reach.
    - by destruct (H (S i) Hi).
    - rewrite take_length. unfold below_wrap in *. lia. }
  eapply SmallReachS; try done.
  - eapply sys_agrees; [apply U0_wf|]. eapply reach_sys; [apply U0_wf|done|]. unfold below_wrap in *. lia.
  - apply Forall_forall. intros r Hr%elem_of_list_In. rewrite forallb_forall in H2. by apply small_ok, H2.
  - apply Forall_forall. intros s Hs%elem_of_list_In. rewrite forallb_forall in H3. by apply negb_true_iff, H3.
Qed.
Example ex_C17 : small_reach U0 7 (regs_of 1 ops17s) (recs_of 1 ops17s).
Proof.
  apply (small_prefixes 1 ops17s); [|by vm_compute]. intros i Hi. cbn in Hi. do 8 (destruct i as [|i]; [by vm_compute|]). lia.
Qed.
Example ex_C17_chunks : map (λ r, map (λ a, map ck_size (ar_chunks a)) (rg_heap r)) (regs_of 1 (take 3 ops17s)) = [[[2; 1]]]. Proof. by vm_compute. Qed.

(** * C51: remove and the size computation: a component that fits together with another one does not fit without it,
    because the padding is computed as the remainder and not as its complement. *)
Definition U1 : universe :=
  Universe (λ c, if decide (c = 0%N) then entity_type else if decide (c = 2%N) then CType 16368 16 else CType 4 4) (λ _, true) 0%N.
Lemma U1_wf : u_wf U1.
Proof. split; [done| |done]. intros c. cbn. repeat case_decide; cbn; vm_compute; done. Qed.
Definition ops08 : list sop := [At 0 (OCreate [(1%N, Val 1); (2%N, Val 2)])].
Theorem C51_remove_refuted : ∃ n r s h m c r', reached U1 n r s ∧ permitted U1 s (ORemove h c) ∧ sr_world s !! h = Some m ∧ is_Some (m !! c) ∧
  rg_remove U1 h c r = (r', Throw InsufficientChunkSize) ∧ (rg_has h [c] r').2 = Ok true.
Proof.
  set (rs := default [] (fst <$> prog U1 ops08 [rg_init] [sreg_init])). set (ss := default [] (snd <$> prog U1 ops08 [rg_init] [sreg_init])).
  exists 1, (default rg_init (rs !! 0)), (default sreg_init (ss !! 0)), (Handle 0 0), {[1%N := Val 1; 2%N := Val 2]}, 1%N,
    (rg_remove U1 (Handle 0 0) 1 (default rg_init (rs !! 0))).1.
  split. { exists rs, ss, 0. split; [apply (prog_reach U1 U1_wf 1 ops08); by vm_compute|]. by vm_compute. }
  split; [apply (permitted_ok U1); by vm_compute|]. split; [apply (bool_decide_unpack _); by vm_compute|].
  split; [apply (bool_decide_unpack _); by vm_compute|]. by vm_compute.
Qed.

Print Assumptions C17_two_chunks_partial.
Print Assumptions C17_only_hazards.
Print Assumptions C17_exact.
Print Assumptions C17_destroy_refuted.
Print Assumptions C17_failed_clone_refuted.
Print Assumptions C18_failed_call_partial.
Print Assumptions C18_view_refuted.
Print Assumptions C18_handle_refuted.
Print Assumptions C22_destructor.
Print Assumptions C22_throwing_constructor_refuted.
Print Assumptions C22_failed_copy_refuted.
Print Assumptions C26_failed_copy_partial.
Print Assumptions C26_id_refuted.
Print Assumptions C26_object_refuted.
Print Assumptions C51_remove_refuted.
