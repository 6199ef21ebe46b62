(** C98: handles that are not entities of the registry are rejected. *)
From Verif Require Import Base Bits Layout PropLayout HandlePool HandleSpec HandlePoolProofs SparseMap SparseMapProofs
  HashTable HashTableProofs HashTableMap Bitset BitsetProofs ComponentSet ComponentSetProofs
  Chunk ChunkProofs Archetype ArchetypeProofs Registry RegistryStore RegistryProofs View ViewProofs RegSpec RegSpecProofs RegObs RegRun PropRegistry.

(** The pool alone: alive answers true only for handles that were handed out and for the handles that follow a destroyed
    one, with the same id and the next generation. *)
Theorem C98_pool_partial n s h : hreach n s → below_wrap n → pool_alive (hs_pool s) h = true →
  h ∈ hs_issued s ∨ ∃ d, d ∈ hs_dead s ∧ h_id d = h_id h ∧ h_gen h = (h_gen d + 1)%N.
Proof.
  intros Hr Hw Ha. pose proof (hinv_reach _ _ Hr Hw) as Hi. unfold pool_alive in Ha.
  destruct (gens (hs_pool s) !! N.to_nat (h_id h)) as [g|] eqn:Eg; [|done]. apply bool_decide_eq_true in Ha. subst g.
  destruct (hi_known _ _ Hi _ _ Eg) as [Hh|(d & Hd & Ed & Ed')]; rewrite N2Nat.id in *.
  - left. by destruct h.
  - right. by exists d.
Qed.

Section foreign.
Variable U : universe.
Hypothesis HU : u_wf U.

(** Whatever the handle is (made up, of another registry, default-constructed): unless it is an entity of the registry, the
    calls throw one of two exceptions and change nothing. *)
Theorem C98_calls_partial n r s h : reached U n r s → below_wrap (2 * S n) → sr_world s !! h = None → ∃ e,
  (e = EntityNotFound ∨ e = OutOfRange) ∧ (rg_alive r h = false → e = EntityNotFound) ∧
  rg_destroy U h r = (r, Throw e) ∧
  (∀ c x, rg_set U h c x r = (r, Throw e)) ∧
  (∀ c x, rg_get_or_insert U h c x r = (r, Throw e)) ∧
  (∀ c, rg_remove U h c r = (r, Throw e)) ∧
  (∀ c, rg_get h c r = (r, Throw e)) ∧
  (∀ cs, rg_has h cs r = (r, Throw e)) ∧
  rg_visit h r = (r, Throw e) ∧
  (∀ ph, rg_clone_into U h ph r = (r, Throw e)) ∧
  (∀ d ph, rg_copy_into U r h ph d = (d, Throw e)) ∧
  (∀ d ph, rg_move_into U h ph (r, d) = ((r, d), Throw e)) ∧
  (sr_pending s = [] → ∃ r' e', (e' = EntityNotFound ∨ e' = OutOfRange) ∧ rg_clone U h r = (r', Throw e') ∧ all_same U s r r') ∧
  (∀ n' d t, reached U n' d t → below_wrap (2 * S n') → sr_pending t = [] →
     ∃ d', rg_copy U r h d = (d', Throw e) ∧ rg_move U h (r, d) = ((r, d'), Throw e) ∧ all_same U t d d').
Proof.
  intros Hr Hbw Hw. destruct (reached_ri U HU _ _ _ Hr (bw_half _ Hbw)) as (iss & hp & Hri). pose proof Hri as [_ H _].
  destruct (out_specs U _ _ _ _ _ _ _ _ h H Hw) as (E1 & E2 & E3 & E4 & E5 & E6 & E7 & E8 & E9).
  assert (∀ n' d t iss' hp', ri U n' d t iss' hp' → below_wrap (S n') → sr_pending t = [] → ∃ d1 ph, rg_allocate d = (d1, Ok ph) ∧ all_same U t d d1) as Hal.
  { intros n' d t iss' hp' Hrd Hbd Hp. destruct (allocate_ri U HU n' d t iss' hp' Hrd Hbd Hp) as (d1 & ph & Ed & Hri1 & _).
    exists d1, ph. split; [done|]. eapply all_from; [by eapply ri_shows|by eapply ri_shows| |done]. done. }
  exists (if rg_alive r h then OutOfRange else EntityNotFound).
  split; [destruct (rg_alive r h); auto|]. split; [by intros ->|].
  split; [done|]. split; [done|]. split; [done|]. split; [done|]. split; [done|]. split; [done|]. split; [done|].
  split; [|split; [done|split; [done|split]]].
  - intros ph. unfold rg_clone_into. by rewrite (bind_ok _ _ r r r).
  - intros Hp. destruct (Hal _ _ _ _ _ Hri ltac:(unfold below_wrap in *; lia) Hp) as (r1 & ph & Er & Hall).
    exists r1, (if rg_alive r1 h then OutOfRange else EntityNotFound). split; [destruct (rg_alive r1 h); auto|]. split; [|done].
    unfold rg_clone. rewrite (bind_ok _ _ _ _ _ Er), (bind_ok _ _ r1 r1 r1) by done.
    destruct (allocate_ri U HU _ _ _ _ _ Hri ltac:(unfold below_wrap in *; lia) Hp) as (r1' & ph' & Er' & [_ H1 _] & _).
    rewrite Er in Er'. injection Er' as <- <-.
    destruct (out_specs U _ _ _ _ _ _ _ _ h H1 Hw) as (_ & _ & _ & _ & _ & _ & _ & E8' & _). apply E8'.
  - intros n' d t Hrd Hbd Hp. destruct (reached_ri U HU _ _ _ Hrd (bw_half _ Hbd)) as (iss' & hp' & Hrid).
    destruct (Hal _ _ _ _ _ Hrid ltac:(unfold below_wrap in *; lia) Hp) as (d1 & ph & Ed & Hall). exists d1.
    split; [unfold rg_copy; by rewrite (bind_ok _ _ _ _ _ Ed)|]. split; [|done].
    unfold rg_move. rewrite (bind_ok _ _ (r, d) (r, d1) ph); [done|]. unfold on_snd. cbn [fst snd]. by rewrite Ed.
Qed.

(** A handle with an id, or a generation, that is not below the number of the calls made is not alive. *)
Theorem C98_far_partial n r s h : reached U n r s → below_wrap (2 * n) → (N.of_nat (2 * n) < h_gen h ∨ N.of_nat (2 * n) <= h_id h)%N →
  rg_alive r h = false.
Proof.
  intros Hr Hbw Hh. destruct (reached_ri U HU _ _ _ Hr Hbw) as (iss & hp & [_ H _]).
  pose proof (rv_pool _ _ _ _ _ _ _ _ _ H) as Hi. unfold rg_alive, pool_alive.
  destruct (gens (rg_pool r) !! N.to_nat (h_id h)) as [g|] eqn:Eg; [|done]. apply bool_decide_eq_false. intros ->.
  pose proof (hi_gen_le _ _ Hi _ _ Eg) as Hle. pose proof (hi_next_le _ _ Hi) as Hnl. destruct (hi_fresh _ _ Hi) as (f & Hf & _).
  cbn [hs_pool] in *. apply lookup_lt_Some in Eg. lia.
Qed.

(** A default-constructed handle. *)
Theorem C98_default_partial n r s : reached U n r s → below_wrap (2 * n) →
  rg_alive r (Handle 4294967295 4294967295) = false ∧ sr_world s !! Handle 4294967295 4294967295 = None ∧
  Handle 4294967295 4294967295 ∉ sr_issued s.
Proof.
  intros Hr Hbw. destruct (reached_ri U HU _ _ _ Hr Hbw) as (iss & hp & [Hs H _]).
  pose proof (rv_pool _ _ _ _ _ _ _ _ _ H) as Hi. pose proof (hi_next_le _ _ Hi) as Hnl.
  assert (Handle 4294967295 4294967295 ∉ iss) as Hn.
  { intros Hx%(hi_iss_lt _ _ Hi). cbn [hs_pool h_id] in *. unfold below_wrap in Hbw. cbn in Hbw. lia. }
  split; [|split].
  - eapply C98_far_partial; [done|done|]. unfold below_wrap in Hbw. cbn in Hbw. cbn [h_gen]. lia.
  - destruct (sr_world s !! _) eqn:Ew; [|done]. destruct (rv_live _ _ _ _ _ _ _ _ _ H (Handle 4294967295 4294967295)) as (? & _); [eauto|done].
  - intros Hx. by apply Hn, Hs.
Qed.

(** The claim is false for alive: after an entity was destroyed, the handle that follows it is alive although no such entity
    was ever created, and the calls then throw another exception. *)
Theorem C98_alive_refuted n r s h : reached U n r s → below_wrap (2 * S n) → sr_pending s = [] →
  is_Some (sr_world s !! h) → ¬ trapped r h →
  ∃ r' s' g, rg_destroy U h r = (r', Ok tt) ∧ reached U (S n) r' s' ∧ (h_gen h < g)%N ∧
    Handle (h_id h) g ∉ sr_issued s' ∧ sr_world s' !! Handle (h_id h) g = None ∧ rg_alive r' (Handle (h_id h) g) = true ∧
    ∀ c, rg_get (Handle (h_id h) g) c r' = (r', Throw OutOfRange).
Proof.
  intros Hr Hbw Hp [m Hm] Hhf. destruct (world_live U HU _ _ _ _ _ Hr (bw_half _ Hbw) Hm) as (Hi & Hd & Hpd).
  destruct (run_rop U (ODestroy h) r) as [r' o] eqn:E.
  destruct (reached_step U HU _ _ _ (ODestroy h) _ _ Hr Hbw Hp E) as [(s' & Hn & Hr' & _)|[_ [? _]]]; [|done].
  cbn in Hn. rewrite Hm in Hn. destruct Hn as [-> ->].
  apply mapM_ok in E as ([] & E & _).
  destruct (reached_ri U HU _ _ _ Hr' Hbw) as (iss & hp & [_ H _]).
  pose proof (rv_pool _ _ _ _ _ _ _ _ _ H) as Hinv.
  destruct (hi_dead _ _ Hinv h ltac:(by left)) as (_ & g & Eg & Hg). cbn [hs_pool] in Eg.
  assert (rg_alive r' (Handle (h_id h) g) = true) as Ha.
  { unfold rg_alive, pool_alive. cbn [h_id h_gen]. rewrite Eg. by apply bool_decide_eq_true. }
  destruct (reached_ri U HU _ _ _ Hr (bw_half _ Hbw)) as (iss0 & hp0 & [Hs0 H0 _]).
  pose proof (rv_pool _ _ _ _ _ _ _ _ _ H0) as Hinv0.
  destruct (rv_live _ _ _ _ _ _ _ _ _ H0 h) as (Ha1 & Ha2 & Ha3); [eauto|].
  pose proof (hi_live _ _ Hinv0 h Ha1 Ha2 Ha3) as L1.
  assert (Handle (h_id h) g ∉ iss0) as Hni.
  { intros Hx. pose proof (hi_iss_old _ _ Hinv0 _ _ Hx L1) as Hle. cbn [h_gen] in Hle. lia. }
  assert (sr_world (kill s h) !! Handle (h_id h) g = None) as Hw.
  { destruct (sr_world (kill s h) !! Handle (h_id h) g) eqn:Ew; [|done]. exfalso.
    cbn in Ew. apply lookup_delete_Some in Ew as [Hne Ew].
    destruct (rv_live _ _ _ _ _ _ _ _ _ H0 (Handle (h_id h) g)) as (Hb1 & _); [eauto|done]. }
  exists r', (kill s h), g. split; [done|]. split; [done|]. split; [done|]. split; [intros Hx; by apply Hni, Hs0|].
  split; [done|]. split; [done|]. destruct (out_specs U _ _ _ _ _ _ _ _ _ H Hw) as (_ & _ & _ & _ & E5 & _). rewrite Ha in E5. done.
Qed.
End foreign.

(** Examples *)
(** Two registries.  The first creates, destroys and creates again, so its entity has generation 1.  The second creates and
    destroys: it is empty, and yet it says that the entity of the first is alive. *)
Definition two_ops : list sop :=
  [At 0 (OCreate [(1%N, Val 11)]); At 0 (ODestroy (Handle 0 0)); At 0 (OCreate [(1%N, Val 12)]);
   At 1 (OCreate [(1%N, Val 13)]); At 1 (ODestroy (Handle 0 0))].
Definition two_run := prog U0 two_ops (replicate 2 rg_init) (replicate 2 sreg_init).
Example ex_two : ∃ rs ss ra rb sb, two_run = Some (rs, ss) ∧ reach U0 5 rs ss ∧ rs !! 0 = Some ra ∧ rs !! 1 = Some rb ∧ ss !! 1 = Some sb ∧
  rg_get (Handle 0 1) 1 ra = (ra, Ok (CVal (Val 12))) ∧ rg_size rb = 0%N ∧ sr_world sb !! Handle 0 1 = None ∧
  rg_alive rb (Handle 0 1) = true ∧ (rg_get (Handle 0 1) 1 rb).2 = Throw OutOfRange.
Proof.
  destruct two_run as [[rs ss]|] eqn:E; [|by vm_compute in E].
  pose proof (prog_reach U0 U0_wf 2 two_ops rs ss ltac:(by vm_compute) E) as Hr.
  exists rs, ss. vm_compute in E. injection E as <- <-. do 3 eexists. split; [done|]. split; [exact Hr|]. clear Hr.
  split; [reflexivity|]. split; [reflexivity|]. split; [reflexivity|].
  split; [by vm_compute|]. split; [by vm_compute|]. split; [by vm_compute|]. split; by vm_compute.
Qed.

(** Programs that give such handles to calls are among the histories of C05 to C25 ([permitted] in RegSpec.v). *)
Definition foreign_ops : list sop :=
  two_ops ++ [At 1 (OSet (Handle 0 1) 1 (CtorOk (Val 14))); At 1 (ODestroy (Handle 7 7)); At 1 (OClone (Handle 0 1));
              Move 1 (Handle 3 0) 0; At 1 (OCreate [(1%N, Val 15)])].
Example ex_foreign_ops : ∃ rs ss ra rb, prog U0 foreign_ops (replicate 2 rg_init) (replicate 2 sreg_init) = Some (rs, ss) ∧ reach U0 10 rs ss ∧
  rs !! 0 = Some ra ∧ rs !! 1 = Some rb ∧ rg_size ra = 1%N ∧ rg_size rb = 1%N ∧ (rg_get (Handle 0 1) 1 rb).2 = Throw OutOfRange ∧
  (rg_get (Handle 1 0) 1 rb).2 = Ok (CVal (Val 15)).
Proof.
  destruct (prog U0 foreign_ops (replicate 2 rg_init) (replicate 2 sreg_init)) as [[rs ss]|] eqn:E; [|by vm_compute in E].
  pose proof (prog_reach U0 U0_wf 2 foreign_ops rs ss ltac:(by vm_compute) E) as Hr.
  exists rs, ss. vm_compute in E. injection E as <- <-. do 2 eexists. split; [done|]. split; [exact Hr|]. clear Hr.
  split; [reflexivity|]. split; [reflexivity|]. split; [by vm_compute|]. split; [by vm_compute|]. split; by vm_compute.
Qed.

(** The hypotheses of the theorems above. *)
Lemma ex_foreign : sr_world s0 !! Handle 7 3 = None ∧ sr_pending s0 = [] ∧ rg_alive r0 (Handle 7 3) = false.
Proof. split; [by vm_compute|]. split; by vm_compute. Qed.
Example ex_C98_calls := C98_calls_partial U0 U0_wf 6 r0 s0 (Handle 7 3) ex_reached bw7 (proj1 ex_foreign).
Example ex_C98_far := C98_far_partial U0 U0_wf 6 r0 s0 (Handle 12 0) ex_reached ltac:(by vm_compute) ltac:(right; by vm_compute).
Example ex_C98_default := C98_default_partial U0 U0_wf 6 r0 s0 ex_reached ltac:(by vm_compute).
Example ex_C98_alive := C98_alive_refuted U0 U0_wf 6 r0 s0 e0 ex_reached bw7 eq_refl (mk_is_Some _ _ ex_world) (ex_hf e0).
Example ex_C98_alive_run : let r' := (rg_destroy U0 e0 r0).1 in let h := Handle (h_id e0) (h_gen e0 + 1) in
  (rg_alive r0 h, rg_alive r' h, (rg_get h 1 r0).2, (rg_get h 1 r').2) = (false, true, Throw EntityNotFound, Throw OutOfRange).
Proof. by vm_compute. Qed.

(** A pool with a handle in each of the two cases of [C98_pool_partial]. *)
Example ex_C98_pool : ∃ p, hreach 3 (Hist p [Handle 1 0; Handle 0 0] [Handle 0 0] [] []) ∧
  pool_alive p (Handle 1 0) = true ∧ pool_alive p (Handle 0 1) = true ∧ pool_alive p (Handle 0 0) = false.
Proof.
  eexists. split.
  - eapply HRS; [eapply HRS; [eapply HRS; [apply HR0|]|]|].
    + apply HCreate. reflexivity.
    + apply HCreate. reflexivity.
    + apply HRecycle. set_solver.
  - split; [by vm_compute|]. split; by vm_compute.
Qed.

Print Assumptions C98_pool_partial.
Print Assumptions C98_calls_partial.
Print Assumptions C98_far_partial.
Print Assumptions C98_default_partial.
Print Assumptions C98_alive_refuted.
