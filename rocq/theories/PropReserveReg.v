(** C04 at the registry: a reserved entity and one that is created before the sync. *)
From Verif Require Import Base Bits Layout PropLayout HandlePool HandleSpec HandlePoolProofs SparseMap SparseMapProofs
  HashTable HashTableProofs HashTableMap Bitset BitsetProofs ComponentSet ComponentSetProofs
  Chunk ChunkProofs Archetype ArchetypeProofs Registry RegistryStore RegistryProofs View ViewProofs RegSpec RegSpecProofs RegObs RegRun PropRegistry.
Local Open Scope nat_scope.

Lemma on_arch_pool {X} p (m : M archetype X) r : rg_pool (on_arch p m r).1 = rg_pool r.
Proof. unfold on_arch. repeat case_match; done. Qed.
Lemma location_same h r : (rg_location h r).1 = r.
Proof. unfold rg_location. repeat case_match; done. Qed.
Lemma remove_location_pool i r : rg_pool (rg_remove_location i r).1 = rg_pool r.
Proof. unfold rg_remove_location. repeat case_match; done. Qed.
Lemma set_location_pool i l r : rg_pool (rg_set_location i l r).1 = rg_pool r.
Proof. unfold rg_set_location. repeat case_match; done. Qed.

Section mix.
Variable U : universe.
Hypothesis HU : u_wf U.

Lemma destroy_pool h r r' : rg_destroy U h r = (r', Ok tt) → rg_alive r h = true ∧ rg_pool r' = pool_recycle (rg_pool r) h.
Proof.
  unfold rg_destroy. intros E. unfold bind in E.
  destruct (rg_location h r) as [ra oa] eqn:Ea. pose proof (location_same h r) as Ha. rewrite Ea in Ha. cbn in Ha. subst ra.
  destruct oa as [l|e|]; try done. assert (rg_alive r h = true) as Hal.
  { unfold rg_location in Ea. by destruct (rg_alive r h). }
  destruct (on_arch (lc_arch l) _ r) as [rb ob] eqn:Eb. pose proof (f_equal (rg_pool ∘ fst) Eb) as Hb. cbn [compose fst] in Hb. rewrite on_arch_pool in Hb.
  destruct ob as [mv|e|]; try done.
  destruct (rg_remove_location (h_id h) rb) as [rc oc] eqn:Ec. pose proof (f_equal (rg_pool ∘ fst) Ec) as Hc. cbn [compose fst] in Hc. rewrite remove_location_pool in Hc.
  destruct oc as [[]|e|]; try done.
  destruct ((match mv with Some g => rg_set_location (h_id g) l | None => ret tt end) rc) as [rd od] eqn:Ed.
  assert (rg_pool rd = rg_pool rc) as Hd.
  { destruct mv as [g|]; [|by injection Ed as <- _]. pose proof (f_equal (rg_pool ∘ fst) Ed) as Hx. cbn [compose fst] in Hx. by rewrite set_location_pool in Hx. }
  destruct od as [[]|e|]; try done. unfold rg_recycle in E. injection E as <-. split; [done|]. cbn [rg_set_pool rg_pool]. congruence.
Qed.

(** After an entity was destroyed, the next reservation is forgotten by every create before the sync: the create does exactly
    what it would do without the reservation, in particular it returns the reserved handle. *)
Theorem C04_forgotten_refuted n r s h r1 : reached U n r s → below_wrap (2 * S (S n)) → sr_pending s = [] → is_Some (sr_world s !! h) →
  rg_destroy U h r = (r1, Ok tt) →
  ∃ r2 g, rg_reserve r1 = (r2, Ok g) ∧ (∀ args, rg_create U args r2 = rg_create U args r1) ∧
    (∀ args r3 h', rg_create U args r2 = (r3, Ok h') → h' = g) ∧
    (∀ args, NoDup args.*1 → u_ent U ∉ args.*1 → is_Some (get_max_size (u_type U <$> args.*1)) → ∃ r3, rg_create U args r2 = (r3, Ok g)).
Proof.
  intros Hr Hbw Hp [m Hm] Ed. destruct (destroy_pool _ _ _ Ed) as [Hal Hpool].
  assert (run_rop U (ODestroy h) r = (r1, Ok RUnit)) as Erun by (cbn; unfold mapM; by rewrite Ed).
  destruct (reached_step U HU _ _ _ (ODestroy h) _ _ Hr ltac:(unfold below_wrap in *; lia) Hp Erun) as [(s1 & Hn & Hr1 & _)|[? _]]; [|done].
  cbn in Hn. rewrite Hm in Hn. destruct Hn as [_ ->].
  destruct (reached_ri U HU _ _ _ Hr1 ltac:(unfold below_wrap in *; lia)) as (iss & hp & [_ H _]). cbn [kill sr_pending] in H. rewrite Hp in H.
  pose proof (rv_pool _ _ _ _ _ _ _ _ _ H) as Hi. pose proof (hi_quiet _ _ Hi eq_refl eq_refl) as Hq. cbn [hs_pool] in Hq.
  pose proof (hi_free_lt _ _ Hi) as Hlt. cbn [hs_pool] in Hlt.
  assert (∃ fr x, free_ids (rg_pool r1) = fr ++ [x]) as (fr & x & Ef).
  { rewrite Hpool. unfold rg_alive in Hal. unfold pool_recycle. rewrite Hal. cbn [free_ids]. eauto. }
  destruct (gens (rg_pool r1) !! N.to_nat x) as [g|] eqn:Eg.
  2:{ apply lookup_ge_None in Eg. specialize (Hlt x). rewrite Ef in Hlt. specialize (Hlt ltac:(apply elem_of_app; right; by left)). lia. }
  set (p2 := Pool (next_id (rg_pool r1)) (cursor (rg_pool r1) - 1) (gens (rg_pool r1)) (free_ids (rg_pool r1))).
  assert (rg_reserve r1 = (rg_set_pool r1 p2, Ok (Handle x g))) as Er.
  { unfold rg_reserve, pool_reserve, reserve_ticket, reserve_finish. cbn [gens free_ids cursor next_id].
    rewrite Hq, Ef, app_length. cbn [length]. rewrite decide_True by lia.
    replace (Z.to_nat (Z.of_nat (length fr + 1) - 1)) with (length fr) by lia. rewrite list_lookup_middle by done. rewrite Eg.
    unfold p2. by rewrite Hq, Ef, app_length. }
  assert (pool_create (rg_pool r1) = pool_create p2) as Esame.
  { unfold pool_create. unfold p2. cbn [free_ids gens next_id cursor]. rewrite Ef, last_snoc, Eg. done. }
  assert (∃ p3, pool_create (rg_pool r1) = (p3, Ok (Handle x g))) as [p3 Ep3].
  { unfold pool_create. rewrite Ef, last_snoc, Eg. eauto. }
  assert (∀ args, rg_create U args (rg_set_pool r1 p2) = rg_create U args r1) as Hc.
  { intros args. unfold rg_create. rewrite (bind_ok rg_allocate _ r1 (rg_set_pool r1 p3) (Handle x g)); [|unfold rg_allocate; by rewrite Ep3].
    rewrite (bind_ok rg_allocate _ (rg_set_pool r1 p2) (rg_set_pool r1 p3) (Handle x g)); [done|].
    unfold rg_allocate. cbn [rg_set_pool rg_pool]. by rewrite <- Esame, Ep3. }
  assert (∀ args r3 h', rg_create U args r1 = (r3, Ok h') → h' = Handle x g) as Hret.
  { intros args r3 h'. unfold rg_create. rewrite (bind_ok rg_allocate _ r1 (rg_set_pool r1 p3) (Handle x g)); [|unfold rg_allocate; by rewrite Ep3].
    unfold bind, ret. intros E. repeat case_match; by simplify_eq. }
  exists (rg_set_pool r1 p2), (Handle x g). split; [done|]. split; [done|]. split; [intros args r3 h'; rewrite Hc; apply Hret|].
  intros args Hnd Hent [k Hk]. rewrite Hc.
  destruct (create_spec U HU _ _ _ _ _ _ _ args H ltac:(unfold below_wrap in *; lia) Hnd Hent) as (r3 & o & h' & hp' & E & _ & [[-> _]|[_ [Hx _]]]); [|congruence].
  exists r3. by rewrite <- (Hret _ _ _ E).
Qed.
End mix.

(** An example: the universe of the examples, one entity that is destroyed. *)
Definition mix_ops : list sop := [At 0 (OCreate [(1%N, Val 11)]); At 0 (OCreate [(2%N, Val 12)])].
Example C04_example_forgotten : ∃ rs ss r s r1, prog U0 mix_ops (replicate 1 rg_init) (replicate 1 sreg_init) = Some (rs, ss) ∧ reach U0 2 rs ss ∧
  rs !! 0 = Some r ∧ ss !! 0 = Some s ∧ sr_pending s = [] ∧ is_Some (sr_world s !! Handle 0 0) ∧ rg_destroy U0 (Handle 0 0) r = (r1, Ok tt) ∧
  (rg_reserve r1).2 = Ok (Handle 0 1) ∧ (rg_create U0 [(1%N, Val 13)] r1).2 = Ok (Handle 0 1) ∧ is_Some (get_max_size (u_type U0 <$> [1%N])).
Proof.
  destruct (prog U0 mix_ops (replicate 1 rg_init) (replicate 1 sreg_init)) as [[rs ss]|] eqn:E; [|by vm_compute in E].
  pose proof (prog_reach U0 U0_wf 1 mix_ops rs ss ltac:(by vm_compute) E) as Hr.
  exists rs, ss. vm_compute in E. injection E as <- <-. do 3 eexists. split; [done|]. split; [exact Hr|]. clear Hr.
  split; [reflexivity|]. split; [reflexivity|]. split; [reflexivity|]. split; [by apply (bool_decide_unpack _); vm_compute|].
  split; [vm_compute; reflexivity|]. split; [by vm_compute|]. split; [by vm_compute|]. by apply (bool_decide_unpack _); vm_compute.
Qed.

Print Assumptions C04_forgotten_refuted.
