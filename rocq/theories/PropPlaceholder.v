(** C78: placeholders and when they are filled. *)
From Verif Require Import Base Bits Layout PropLayout HandlePool HandleSpec HandlePoolProofs SparseMap SparseMapProofs
  HashTable HashTableProofs HashTableMap Bitset BitsetProofs ComponentSet ComponentSetProofs
  Chunk ChunkProofs Archetype ArchetypeProofs Registry RegistryStore RegistryProofs View ViewProofs RegSpec RegSpecProofs RegObs RegRun
  Placeholder PlaceholderProofs PropRegistry.

Section props.
Context (U : universe).
Hypothesis HU : u_wf U.

(** sync may be called late: the calls [ops], of all registries, before sync are the same calls after it, with the same
    results and the same registries afterwards. *)
Theorem C78_late_sync n rs ss j s ops : reach U n rs ss → below_wrap (2 * S n) → ss !! j = Some s → Forall (early j s) ops →
  ∃ rs' os, calls U (At j OSync :: ops) rs = (rs', Ok RUnit :: os) ∧ calls U (ops ++ [At j OSync]) rs = (rs', os ++ [Ok RUnit]).
Proof.
  intros Hr Hbw Hs Hops. pose proof (reach_sys U HU _ _ _ Hr (bw_half _ Hbw)) as Hsys.
  destruct (sys_get U _ _ _ _ _ Hsys Hs) as (r & iss & hp & Hj & Hri).
  assert (reached U n r s) as Hrd by (by exists rs, ss, j).
  destruct (reached_step U HU n r s OSync (rg_set_pool r (pool_flush (rg_pool r))) (Ok RUnit) Hrd Hbw I eq_refl) as [(s' & [_ ->] & Hr' & _)|[_ []]].
  pose proof (reached_shows U HU _ _ _ Hrd (bw_half _ Hbw)) as Hsh. pose proof (reached_shows U HU _ _ _ Hr' Hbw) as Hsh'.
  assert (∀ h, known s h → pool_alive (pool_flush (rg_pool r)) h = pool_alive (rg_pool r) h) as Hp.
  { intros h [Hi Hpd]. pose proof (sh_alive _ _ _ Hsh h Hi Hpd) as E1. pose proof (sh_alive _ _ _ Hsh' h Hi (not_elem_of_nil _)) as E2.
    unfold rg_alive, a_alive in *. cbn [rg_set_pool rg_pool sr_dead] in *. congruence. }
  destruct (calls U ops rs) as [rs1 os] eqn:E1.
  destruct (calls_commute U j s (pool_flush (rg_pool r)) ops Hops rs r rs1 os Hj Hp E1) as (r1 & Hj1 & Ep1 & E2).
  exists (<[j := rg_set_pool r1 (pool_flush (rg_pool r))]> rs1), os. split.
  - cbn [calls run_sop run_rop]. unfold on_reg. rewrite Hj. unfold mapM, rg_sync. cbn [omap_out]. by rewrite E2.
  - rewrite calls_app, E1. cbn [calls run_sop run_rop]. unfold on_reg. rewrite Hj1. unfold mapM, rg_sync. cbn [omap_out]. by rewrite Ep1.
Qed.

(** Hence a placeholder that is filled before sync is, after sync, the entity that it would be if it had been filled after
    sync: by clone, copy and move.  (The undefined behaviour is that of move out of a trapped row, which is there after
    sync as well.) *)
Theorem C78_fill n rs ss j s ph op rs1 o rs2 o2 : reach U n rs ss → below_wrap (2 * S (S n)) → ss !! j = Some s → fills j ph op → early j s op →
  spermitted U (<[j := synced s]> ss) op → run_sop U op rs = (rs1, o) → run_sop U (At j OSync) rs1 = (rs2, o2) →
  o2 = Ok RUnit ∧ ((∃ ss2, snext U (<[j := synced s]> ss) op o ss2 ∧ reach U (S (S n)) rs2 ss2) ∨ o = UB ∧ hazard rs ss op).
Proof.
  intros Hr Hbw Hs Hf He Hper E1 E2.
  destruct (C78_late_sync n rs ss j s [op] Hr (bw_half _ Hbw) Hs) as (rs' & os & Ea & Eb); [by apply Forall_singleton|].
  cbn [app calls] in Ea, Eb. rewrite E1, E2 in Eb. injection Eb as <- Eos. apply (app_inj_tail [o] os) in Eos as [<- ->].
  destruct (run_sop U (At j OSync) rs) as [rsa oa] eqn:E3. destruct (run_sop U op rsa) as [rsb ob] eqn:E4. injection Ea as -> -> ->. split; [done|].
  destruct (reach_step U HU n rs ss (At j OSync) rsa (Ok RUnit) Hr (bw_half _ Hbw)) as [(ss' & Hn & Hr' & _)|[? _]]; [by exists s|done| |done].
  destruct Hn as (s1 & s2 & Hs1 & [_ ->] & ->). rewrite Hs in Hs1. injection Hs1 as <-.
  destruct (reach_step U HU (S n) _ _ op _ _ Hr' Hbw Hper E4) as [(ss2 & Hn & Hr2 & _)|[-> Hh]]; [left; eauto|right]. split; [done|].
  destruct Hf as [(h & ->)|[(i & h & ->)|(i & h & ->)]]; [by destruct Hh as (? & ? & _ & _ & [])|done|].
  destruct He as [Hij _]. cbn [hazard] in *. cbn [run_sop] in E3. unfold on_reg in E3.
  destruct Hh as (r1 & s1 & Hi1 & Hi2 & Hh). rewrite list_lookup_insert_ne in Hi2 by done. exists r1, s1. split; [|done].
  destruct (rs !! j) as [rj|]; [|congruence]. cbn [run_rop] in E3. unfold mapM, rg_sync in E3. injection E3 as <-. by rewrite list_lookup_insert_ne in Hi1.
Qed.

(** clone, in terms of one registry. *)
Theorem C78_clone n r s h m ph : reached U n r s → below_wrap (2 * S (S n)) → sr_world s !! h = Some m → copyable U m → ph ∈ sr_pending s →
  ∃ r1 r2, rg_clone_into U h ph r = (r1, Ok ph) ∧ rg_sync r1 = (r2, Ok tt) ∧
    reached U (S (S n)) r2 (with_world (synced s) (<[ph := m]> (sr_world s))).
Proof.
  intros Hrd Hbw Hw Hc Hp. pose proof Hrd as (rs & ss & j & Hr & Hj & Hs).
  destruct (world_live U HU _ _ _ _ _ Hrd (bw_half _ (bw_half _ Hbw)) Hw) as (W1 & W2 & W3). pose proof (reached_swf U HU _ _ _ Hrd) as (X1 & X2 & X3).
  destruct (run_sop U (At j (OCloneInto h ph)) rs) as [rs1 o] eqn:E1. destruct (run_sop U (At j OSync) rs1) as [rs2 o2] eqn:E2.
  pose proof (lookup_lt_Some _ _ _ Hs) as Hlt. pose proof (lookup_lt_Some _ _ _ Hj) as Hlt'.
  assert (sr_world s !! ph = None) as Hph.
  { destruct (sr_world s !! ph) eqn:E; [|done]. by destruct (world_live U HU _ _ _ _ _ Hrd (bw_half _ (bw_half _ Hbw)) E) as (_ & _ & []). }
  destruct (C78_fill n rs ss j s ph (At j (OCloneInto h ph)) rs1 o rs2 o2) as [-> Ho]; try done.
  { left. by exists h. }
  { right. by split. }
  { exists (synced s). split; [by apply list_lookup_insert|]. split; [|done]. split_and!; [by apply X3| |apply not_elem_of_nil].
    destruct (reached_ri U HU _ _ _ Hrd (bw_half _ (bw_half _ Hbw))) as (iss & hp & [_ Hri _]). apply (hi_pend _ _ (rv_pool _ _ _ _ _ _ _ _ _ Hri) ph Hp). }
  destruct Ho as [(ss2 & (s1 & s2 & Hs1 & Hn & ->) & Hr2)|[_ (? & ? & _ & _ & [])]].
  rewrite list_lookup_insert in Hs1 by done. injection Hs1 as <-. cbn [rnext synced sr_world] in Hn. rewrite Hw in Hn.
  destruct Hn as [(_ & -> & ->)|(? & _)]; [|done]. cbn [run_sop run_rop] in E1, E2. unfold on_reg in E1, E2. rewrite Hj in E1.
  destruct (mapM RHandle (rg_clone_into U h ph) r) as [r1 o1] eqn:E3. injection E1 as <- ->. rewrite list_lookup_insert in E2 by done.
  apply mapM_ok in E3 as (x & E3 & [= <-]). cbn in E2. injection E2 as <-. rewrite list_insert_insert in Hr2. rewrite list_insert_insert in Hr2.
  eexists r1, _. split; [done|]. split; [done|]. eexists _, _, j. split; [exact Hr2|]. by split; apply list_lookup_insert.
Qed.

(** A placeholder that names the slot of an entity: the entity itself, filled once more, or a destroyed entity whose slot
    was given to another.  That entity then reads as the copy, its own components are lost. *)
Theorem C78_taken_refuted n r s h m ph g mg : reached U n r s → below_wrap (2 * S n) → sr_world s !! h = Some m → copyable U m →
  sr_world s !! g = Some mg → h_id ph = h_id g →
  ∃ r', rg_clone_into U h ph r = (r', Ok ph) ∧ rg_size r' = rg_size r ∧
    ∀ c, c ≠ u_ent U → (rg_get g c r').2 = match m !! c with Some v => Ok (CVal v) | None => Throw ComponentNotFound end.
Proof.
  intros Hr Hbw Hw Hcp Hg Eid. destruct (reached_ri U HU _ _ _ Hr (bw_half _ Hbw)) as (iss & hp & [_ H _]).
  assert (below_wrap (S (2 * n))) as Hb by (unfold below_wrap in *; lia).
  destruct (copy_any U HU _ _ _ _ _ _ _ _ _ _ ph H (locs_room U H Hb) Hw) as (r' & hp' & b & q & cs & rowss & E & Hst & Ep & Hwf & Habs & Hb' & Hq & Hf).
  { intros c v Hv. apply Hcp. eauto. }
  destruct (loc_in U H g mg Hg) as (a1 & p1 & cs1 & rowss1 & rows1 & El1 & _ & _ & _ & _ & Hl1).
  exists r'. split; [done|]. split.
  - unfold rg_size. rewrite (sm_size_spec w32 _ Hwf), (sm_size_spec w32 (rg_locs r)), Habs, map_size_insert_Some by (apply H || by rewrite Eid). done.
  - intros c Hc. destruct (st_arch U _ _ _ _ _ Hst Hb') as (ar & Har & Hrep). cbn [fst snd] in Hrep.
    assert (rg_location g r' = (r', Ok (loc_of (b, q)))) as El.
    { unfold rg_location, rg_alive. rewrite Ep. pose proof (world_alive U H g (mk_is_Some _ _ Hg)) as Ha. unfold rg_alive in Ha. rewrite Ha.
      rewrite (sm_at_spec w32) by done. by rewrite Habs, Eid, lookup_insert. }
    unfold rg_get. rewrite (bind_ok _ _ _ _ _ El). cbn [loc_of lc_arch lc_chunk lc_row fst snd].
    pose proof (ar_ref_spec U _ _ _ _ _ _ c Hrep Hq) as Er. destruct (m !! c) as [v|] eqn:Hmc.
    + assert (c ∈ cs) as Hcs by (apply (full_elem _ _ _ c Hf); eauto). rewrite decide_True in Er by (by right).
      rewrite (bind_ok _ _ _ _ _ (on_arch_same _ _ _ _ _ Har Er)).
      by rewrite (on_arch_same _ _ _ _ _ Har (ar_read_spec U _ _ _ _ _ (ph, m) c v Hrep Hq Hcs Hmc)).
    + assert (c ∉ cs) as Hcs by (rewrite (full_elem _ _ _ c Hf), Hmc; by intros [? ?]). rewrite decide_False in Er by set_solver.
      by rewrite (bind_throw _ _ _ _ _ (on_arch_same _ _ _ _ _ Har Er)).
Qed.

(** A placeholder whose entity was destroyed is filled as well: the registry then has one entity more, which is not alive. *)
Theorem C78_dead_refuted n r s h m ph : reached U n r s → below_wrap (2 * S n) → sr_world s !! h = Some m → copyable U m →
  ph ∈ sr_dead s → (∀ g, is_Some (sr_world s !! g) → h_id g ≠ h_id ph) →
  ∃ r', rg_clone_into U h ph r = (r', Ok ph) ∧ rg_alive r' ph = false ∧ rg_size r' = (rg_size r + 1)%N.
Proof.
  intros Hr Hbw Hw Hcp Hd Hno. destruct (reached_ri U HU _ _ _ Hr (bw_half _ Hbw)) as (iss & hp & [_ H _]).
  assert (below_wrap (S (2 * n))) as Hb by (unfold below_wrap in *; lia).
  destruct (copy_any U HU _ _ _ _ _ _ _ _ _ _ ph H (locs_room U H Hb) Hw) as (r' & hp' & b & q & cs & rowss & E & Hst & Ep & Hwf & Habs & Hb' & Hq & Hf).
  { intros c v Hv. apply Hcp. eauto. }
  exists r'. split; [done|]. split.
  - unfold rg_alive. rewrite Ep. apply (alive_dead U H ph Hd).
  - unfold rg_size. rewrite (sm_size_spec w32 _ Hwf), (sm_size_spec w32 (rg_locs r)) by apply H. rewrite Habs, map_size_insert_None; [lia|].
    destruct (sm_abs (rg_locs r) !! h_id ph) as [l|] eqn:El; [|done]. exfalso.
    apply (lw_locs _ _ _ (rv_lw _ _ _ _ _ _ _ _ _ H)) in El as (x & [g mg] & _ & Hx & Hid). cbn [fst] in Hid.
    apply (Hno g); [|done]. exists mg. apply (lw_world _ _ _ (rv_lw _ _ _ _ _ _ _ _ _ H)). eauto.
Qed.
End props.

(** * Examples *)
Definition all_entities : rop := OEach [VReq (u_ent U0) false] (λ _ _ _, None).
(** A placeholder that is filled twice is visited twice; when its entity is destroyed, a row of the dead entity is left,
    which views still visit. *)
Theorem C78_twice_refuted : ∃ h ph, (calls U0 (At 0 <$> [OCreate [(1%N, Val 10)]; OReserve; OSync; OCloneInto h ph; OCloneInto h ph; all_entities; OSize;
    ODestroy ph; all_entities; OAlive ph]) [rg_init]).2 =
  [Ok (RHandle h); Ok (RHandle ph); Ok RUnit; Ok (RHandle ph); Ok (RHandle ph); Ok (RCalls [[CEnt h]; [CEnt ph]; [CEnt ph]]); Ok (RNum 2);
   Ok RUnit; Ok (RCalls [[CEnt h]; [CEnt ph]]); Ok (RBool false)].
Proof. exists (Handle 0 0), (Handle 1 0). by vm_compute. Qed.
(** Filling a destroyed entity: its slot was given to [g] in the meantime, whose component is replaced. *)
Theorem C78_stale_refuted : ∃ h ph g, h ≠ g ∧ ph ≠ g ∧ (calls U0 (At 0 <$> [OCreate [(1%N, Val 10)]; OReserve; OSync; OCloneInto h ph; ODestroy ph;
    OCreate [(1%N, Val 77)]; OGet g 1%N; OCloneInto h ph; OGet g 1%N; all_entities]) [rg_init]).2 =
  [Ok (RHandle h); Ok (RHandle ph); Ok RUnit; Ok (RHandle ph); Ok RUnit;
   Ok (RHandle g); Ok (RCell (CVal (Val 77))); Ok (RHandle ph); Ok (RCell (CVal (Val 10))); Ok (RCalls [[CEnt h]; [CEnt g]; [CEnt ph]])].
Proof. exists (Handle 0 0), (Handle 1 0), (Handle 1 1). split; [done|]. split; [done|]. by vm_compute. Qed.

(** A run with a reserved placeholder, filled before sync by clone and, in the second registry, by move. *)
Definition opsp : list sop := ops0 ++ [At 0 OReserve; At 1 OReserve].
Definition rsp := (default ([], []) (prog U0 opsp (replicate 2 rg_init) (replicate 2 sreg_init))).1.
Definition ssp := (default ([], []) (prog U0 opsp (replicate 2 rg_init) (replicate 2 sreg_init))).2.
Definition rp := default rg_init (rsp !! 0). Definition sp := default sreg_init (ssp !! 0).
Definition sp1 := default sreg_init (ssp !! 1).
Definition php := default (Handle 9 9) (head (sr_pending sp)). Definition php1 := default (Handle 9 9) (head (sr_pending sp1)).
Example exp_reach : reach U0 8 rsp ssp.
Proof. apply (prog_reach U0 U0_wf 2 opsp); [vm_compute; done|]. unfold rsp, ssp. destruct (prog _ _ _ _) as [[??]|] eqn:E; [done|]. by vm_compute in E. Qed.
Example exp_sp : ssp !! 0 = Some sp ∧ ssp !! 1 = Some sp1.
Proof. unfold sp, sp1. split; [destruct (ssp !! 0) eqn:E; [done|by vm_compute in E]|destruct (ssp !! 1) eqn:E; [done|by vm_compute in E]]. Qed.
Example exp_reached : reached U0 8 rp sp.
Proof. exists rsp, ssp, 0. split; [apply exp_reach|]. split; [|apply exp_sp]. unfold rp. destruct (rsp !! 0) eqn:E; [done|by vm_compute in E]. Qed.
Example exp_world : sr_world sp !! e0 = Some m0 ∧ php ∈ sr_pending sp ∧ php1 ∈ sr_pending sp1.
Proof. split_and!; apply (bool_decide_unpack _); by vm_compute. Qed.
Example exp_known : known sp e0.
Proof. split; apply (bool_decide_unpack _); by vm_compute. Qed.
Example ex_C78_late := C78_late_sync U0 U0_wf 8 rsp ssp 0 sp [At 0 (OSet e0 1%N (CtorOk (Val 5))); At 0 (OCloneInto e0 php); CopyInto 0 e0 1 php1; At 0 all_entities]
  exp_reach (ltac:(by vm_compute)) (proj1 exp_sp).
Example ex_C78_late_hyp : Forall (early 0 sp) [At 0 (OSet e0 1%N (CtorOk (Val 5))); At 0 (OCloneInto e0 php); CopyInto 0 e0 1 php1; At 0 all_entities].
Proof. pose proof exp_known as H. apply Forall_cons; split; [by right|]. apply Forall_cons; split; [by right|]. apply Forall_cons; split; [by split|]. apply Forall_cons; split; [by right|]. by apply Forall_nil. Qed.
Example ex_C78_clone := C78_clone U0 U0_wf 8 rp sp e0 m0 php exp_reached (ltac:(by vm_compute)) (proj1 exp_world).
Example ex_C78_fill rs1 o rs2 o2 := C78_fill U0 U0_wf 8 rsp ssp 1 sp1 php1 (CopyInto 0 e0 1 php1) rs1 o rs2 o2 exp_reach (ltac:(by vm_compute)) (proj2 exp_sp).
Example ex_C78_fill_hyp : fills 1 php1 (CopyInto 0 e0 1 php1) ∧ early 1 sp1 (CopyInto 0 e0 1 php1).
Proof. split; [right; left; by exists 0, e0|done]. Qed.
Example ex_C78_run : (calls U0 [At 0 (OCloneInto e0 php); CopyInto 0 e0 1 php1; At 0 OSync; At 1 OSync; At 0 (OGet php 1%N); At 1 (OGet php1 2%N)] rsp).2 =
  [Ok (RHandle php); Ok (RHandle php1); Ok RUnit; Ok RUnit; Ok (RCell (CVal (Val 10))); Ok (RCell (CVal (Val 20)))].
Proof. by vm_compute. Qed.
Example ex_C78_taken m := C78_taken_refuted U0 U0_wf 6 r0 s0 e0 m0 e2 e2 m ex_reached (ltac:(by vm_compute)) ex_world.
Example ex_C78_dead := C78_dead_refuted U0 U0_wf 6 r0 s0 e0 m0 e1 ex_reached (ltac:(by vm_compute)) ex_world.
Example ex_C78_hyps : ((λ m : gmap cid val, m !! 1%N) <$> sr_world s0 !! e2, forallb (u_copyable U0) [1%N; 2%N; 3%N]) = (Some (Some (Val 12)), true).
Proof. by vm_compute. Qed.

Print Assumptions C78_late_sync.
Print Assumptions C78_fill.
Print Assumptions C78_clone.
Print Assumptions C78_taken_refuted.
Print Assumptions C78_dead_refuted.
Print Assumptions C78_twice_refuted.
Print Assumptions C78_stale_refuted.
