(** C102: entities are ordered, and among those of one slot by age. *)
From Verif Require Import Base Bits Layout PropLayout HandlePool HandleSpec HandlePoolProofs HandleWrap HandleOrder SparseMap SparseMapProofs
  HashTable HashTableProofs HashTableMap Bitset BitsetProofs ComponentSet ComponentSetProofs
  Chunk ChunkProofs Archetype ArchetypeProofs Registry RegistryStore RegistryProofs View ViewProofs RegSpec RegSpecProofs RegObs RegRun PropRegistry.

(** The cases of all comparisons. *)
Ltac compares := unfold handle_lt, handle_eq, handle_compare in *;
  repeat match goal with
  | |- context [N.compare ?x ?y] => destruct (N.compare_spec x y)
  | H : context [N.compare ?x ?y] |- _ => destruct (N.compare_spec x y)
  end; try done; try lia.

(** The comparison is a strict total order, so that handles can be sorted and be the keys of std::set and std::map. *)
Theorem C102_order (a b c : handle) :
  handle_lt a a = false ∧
  (handle_lt a b = true → handle_lt b c = true → handle_lt a c = true) ∧
  (handle_lt a b = true ∨ a = b ∨ handle_lt b a = true) ∧
  (handle_eq a b = true ↔ a = b).
Proof.
  split; [|split; [|split]].
  - compares.
  - compares.
  - destruct (decide (a = b)) as [|Hn]; [by auto|]. destruct a as [i g], b as [j k]. cbn [h_id h_gen].
    assert (i ≠ j ∨ g ≠ k) by (destruct (decide (i = j)); [right|by left]; congruence). compares; cbn [h_id h_gen] in *; auto; lia.
  - split; [|intros ->; compares]. destruct a as [i g], b as [j k]. compares. cbn [h_id h_gen] in *. by subst.
Qed.

(** A handle that was not recycled is greater than all others of its slot. *)
Lemma newest n s g h : hinv n s → g ∈ hs_issued s → h ∈ hs_issued s → h ∉ hs_dead s → h_id g = h_id h → g ≠ h → (h_gen g < h_gen h)%N.
Proof.
  intros Hi Hg Hh Hd Hid Hne.
  assert (h_gen g ≠ h_gen h) as Hgen by (intros E; apply Hne; destruct g, h; cbn in *; congruence).
  destruct (decide (h ∈ hs_pending s)) as [Hp|Hp].
  - destruct (hi_pend _ _ Hi h Hp) as (_ & _ & [Eg|[Hl H0]]).
    + rewrite <- Hid in Eg. pose proof (hi_iss_old _ _ Hi g _ Hg Eg). lia.
    + exfalso. assert (gens (hs_pool s) !! N.to_nat (h_id g) = None) as En by (apply lookup_ge_None; rewrite Hid; lia).
      destruct (decide (g ∈ hs_dead s)) as [Hgd|Hgd]; [destruct (hi_dead _ _ Hi g Hgd) as (_ & k & Ek & _); congruence|].
      destruct (decide (g ∈ hs_pending s)) as [Hgp|Hgp].
      * destruct (hi_pend _ _ Hi g Hgp) as (_ & _ & [Ek|[_ Ek]]); congruence.
      * pose proof (hi_live _ _ Hi g Hg Hgd Hgp). congruence.
  - pose proof (hi_live _ _ Hi h Hh Hd Hp) as Eg. rewrite <- Hid in Eg. pose proof (hi_iss_old _ _ Hi g _ Hg Eg). lia.
Qed.

Lemma issued_step s s' : hstep s s' → hs_issued s' = hs_issued s ∨ ∃ h, hs_issued s' = h :: hs_issued s ∧ hs_dead s' = hs_dead s.
Proof. destruct 1; cbn; eauto. Qed.

(** Of two handles with the same id, the one handed out earlier is smaller, whatever was created, reserved, recycled and
    flushed in between, and by whichever threads. *)
Theorem C102_age n s l1 h l2 g : hreach n s → below_wrap n → hs_issued s = l1 ++ h :: l2 → g ∈ l2 → h_id g = h_id h → handle_lt g h = true.
Proof.
  intros Hr Hw. revert l1. induction Hr as [|n s s' Hr IH Hs]; intros l1 El Hg Hid; [by destruct l1|].
  pose proof (hinv_reach _ _ (HRS _ _ _ Hr Hs) Hw) as Hi. assert (below_wrap n) as Hw' by (unfold below_wrap in *; lia).
  pose proof (hinv_reach _ _ Hr Hw') as Hi0.
  destruct (issued_step _ _ Hs) as [E|(x & E & Ed)].
  - rewrite E in El. by eapply IH.
  - destruct l1 as [|y l1]; rewrite E in El; injection El as -> El; [|by eapply IH].
    pose proof (hi_iss_nd _ _ Hi) as Hnd. rewrite E, El in Hnd. apply NoDup_cons in Hnd as [Hn _].
    enough (h_gen g < h_gen h)%N by compares. apply (newest (S n) s'); [done|rewrite E, El; by right|rewrite E; by left| |done|].
    + rewrite Ed. intros Hd. destruct (hi_dead _ _ Hi0 h Hd) as [Hx _]. rewrite El in Hx. done.
    + intros ->. done.
Qed.

(** The bound of 2^32 operations cannot be dropped: when the generation has wrapped around, a newer handle of the slot is
    smaller than an older one. *)
Lemma round_step_iss k n iss dd : hreach n (Hist (round_pool k) iss dd [] []) →
  ∃ x dd', hreach (S (S n)) (Hist (round_pool (S k)) (Handle 0 x :: iss) dd' [] []) ∧ x = (N.of_nat k mod w32)%N.
Proof.
  intros Hr. exists (N.of_nat k mod w32)%N. eexists. split; [|done]. eapply HRS; [eapply HRS; [exact Hr|]|].
  - apply HCreate. reflexivity.
  - replace (round_pool (S k)) with (pool_recycle (Pool 1 0 [(N.of_nat k mod w32)%N] []) (Handle 0 (N.of_nat k mod w32)%N)); [apply HRecycle; left|].
    unfold round_pool. rewrite <- mod_succ_w32. generalize (N.of_nat k mod w32)%N as x. intros x.
    unfold pool_recycle, pool_alive. cbn [gens h_id h_gen]. change ([x] !! N.to_nat 0) with (Some x). cbv iota beta. by rewrite bool_decide_true.
Qed.
Lemma rounds_iss k : ∃ n iss dd, hreach n (Hist (round_pool (S (S k))) iss dd [] []) ∧ Handle 0 1 ∈ iss.
Proof.
  induction k as [|k (n & iss & dd & Hr & Hi)].
  - destruct round_first as [iss Hr]. destruct (round_step_iss _ _ _ _ Hr) as (x & dd & Hr' & Ex). eexists _, _, _. split; [exact Hr'|].
    replace x with 1%N by (rewrite Ex; by vm_compute). by left.
  - destruct (round_step_iss _ _ _ _ Hr) as (x & dd' & Hr' & _). eexists _, _, _. split; [exact Hr'|]. by right.
Qed.
Theorem C102_bound_needed : ∃ n s h l g, hreach n s ∧ hs_issued s = h :: l ∧ g ∈ l ∧ h_id g = h_id h ∧ handle_lt h g = true.
Proof.
  assert (∃ k, (N.of_nat (S (S k)) = w32)%N) as [k Hk].
  { exists (N.to_nat (w32 - 2)). unfold w32. lia. }
  destruct (rounds_iss k) as (n & iss & dd & Hr & Hi). destruct (round_step_iss _ _ _ _ Hr) as (x & dd' & Hr' & Ex).
  eexists _, _, (Handle 0 x), iss, (Handle 0 1). split; [exact Hr'|]. split; [done|]. split; [done|]. split; [done|].
  rewrite Hk, N.mod_same in Ex by done. subst x. done.
Qed.

(** A handle that was handed out is valid, and smaller than the invalid one. *)
Theorem C102_valid n s h : hreach n s → below_wrap n → h ∈ hs_issued s →
  handle_valid h = true ∧ handle_lt h (Handle 4294967295 4294967295) = true.
Proof.
  intros Hr Hw Hh. pose proof (hinv_reach _ _ Hr Hw) as Hi. pose proof (hi_iss_lt _ _ Hi h Hh) as H1. pose proof (hi_next_le _ _ Hi) as H2.
  unfold below_wrap in Hw. change (2 ^ 32)%N with 4294967296%N in Hw.
  assert (h_id h < 4294967295)%N as Hlt by lia. split.
  - unfold handle_valid. apply bool_decide_eq_true. intros ->. change (h_id invalid_handle) with 4294967295%N in Hlt. lia.
  - compares; cbn [h_id] in *; lia.
Qed.

Section registry.
Variable U : universe.
Hypothesis HU : u_wf U.

(** An entity of a registry is greater than every other handle with its id that the registry returned before. *)
Theorem C102_entity n r s g h : reached U n r s → below_wrap (2 * n) → is_Some (sr_world s !! h) → g ∈ sr_issued s → h_id g = h_id h → g ≠ h →
  handle_lt g h = true.
Proof.
  intros Hr Hbw Hh Hg Hid Hne. destruct (reached_ri U HU _ _ _ Hr Hbw) as (iss & hp & [Hs H _]).
  destruct (rv_live _ _ _ _ _ _ _ _ _ H h Hh) as (H1 & H2 & _). enough (h_gen g < h_gen h)%N by compares.
  apply (newest _ _ g h (rv_pool _ _ _ _ _ _ _ _ _ H)); try done. by apply Hs.
Qed.
(** Two entities of a registry never share the id, so sorting entities sorts them by id. *)
Theorem C102_entities n r s g h : reached U n r s → below_wrap (2 * n) → is_Some (sr_world s !! g) → is_Some (sr_world s !! h) → g ≠ h →
  (handle_lt g h = true ↔ (h_id g < h_id h)%N).
Proof.
  intros Hr Hbw Hg Hh Hne. destruct (reached_ri U HU _ _ _ Hr Hbw) as (iss & hp & [Hs H _]).
  destruct (rv_live _ _ _ _ _ _ _ _ _ H h Hh) as (H1 & H2 & _). destruct (rv_live _ _ _ _ _ _ _ _ _ H g Hg) as (H3 & H4 & _).
  assert (h_id g ≠ h_id h) as Hid; [|split; compares]. intros Hid.
  pose proof (newest _ _ g h (rv_pool _ _ _ _ _ _ _ _ _ H) H3 H1 H2 Hid Hne).
  pose proof (newest _ _ h g (rv_pool _ _ _ _ _ _ _ _ _ H) H1 H3 H4 (eq_sym Hid) (not_eq_sym Hne)). lia.
Qed.
End registry.

(** Examples: two entities, the first one destroyed, and a third one in its slot. *)
Definition order_ops : list sop :=
  [At 0 (OCreate [(1%N, Val 11)]); At 0 (OCreate [(1%N, Val 12)]); At 0 (ODestroy (Handle 0 0)); At 0 (OCreate [(2%N, Val 13)])].
Example ex_order : ∃ rs ss r s, prog U0 order_ops (replicate 1 rg_init) (replicate 1 sreg_init) = Some (rs, ss) ∧ reach U0 4 rs ss ∧ rs !! 0 = Some r ∧ ss !! 0 = Some s ∧
  is_Some (sr_world s !! Handle 0 1) ∧ is_Some (sr_world s !! Handle 1 0) ∧ Handle 0 0 ∈ sr_issued s ∧
  handle_lt (Handle 0 0) (Handle 0 1) = true ∧ handle_lt (Handle 0 1) (Handle 1 0) = true.
Proof.
  destruct (prog U0 order_ops (replicate 1 rg_init) (replicate 1 sreg_init)) as [[rs ss]|] eqn:E; [|by vm_compute in E].
  pose proof (prog_reach U0 U0_wf 1 order_ops rs ss ltac:(by vm_compute) E) as Hr.
  exists rs, ss. vm_compute in E. injection E as <- <-. do 2 eexists. split; [done|]. split; [exact Hr|]. clear Hr.
  split; [reflexivity|]. split; [reflexivity|]. split; [by apply (bool_decide_unpack _); vm_compute|].
  split; [by apply (bool_decide_unpack _); vm_compute|]. split; [by apply (bool_decide_unpack _); vm_compute|]. split; by vm_compute.
Qed.
(** A slot used three times: its handles were handed out in ascending order. *)
Definition order_hist : hist :=
  Hist (Pool 1 0 [2%N] []) [Handle 0 2; Handle 0 1; Handle 0 0] [Handle 0 1; Handle 0 0] [] [].
Example ex_order_hist : hreach 5 order_hist.
Proof.
  refine (HRS _ _ _ (HRS _ _ _ (HRS _ _ _ (HRS _ _ _ (HRS _ _ _ HR0 _) _) _) _) _).
  - apply (HCreate pool_init [] [] (Pool 1 0 [0%N] []) (Handle 0 0)). by vm_compute.
  - apply (HRecycle (Pool 1 0 [0%N] []) [Handle 0 0] [] (Handle 0 0)). by left.
  - apply (HCreate _ _ _ (Pool 1 0 [1%N] []) (Handle 0 1)). by vm_compute.
  - apply (HRecycle (Pool 1 0 [1%N] []) [Handle 0 1; Handle 0 0] [Handle 0 0] (Handle 0 1)). by left.
  - apply (HCreate _ _ _ (Pool 1 0 [2%N] []) (Handle 0 2)). by vm_compute.
Qed.
Example ex_age : handle_lt (Handle 0 0) (Handle 0 2) = true.
Proof. apply (C102_age 5 order_hist [] _ [Handle 0 1; Handle 0 0]); [apply ex_order_hist|done|done|right; by left|done]. Qed.

Print Assumptions C102_order.
Print Assumptions C102_age.
Print Assumptions C102_bound_needed.
Print Assumptions C102_valid.
Print Assumptions C102_entity.
Print Assumptions C102_entities.
