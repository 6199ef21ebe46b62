(** Calls that do not look at the handle pool commute with sync. *)
From Verif Require Import Base Bits Layout PropLayout HandlePool HandleSpec HandlePoolProofs SparseMap SparseMapProofs
  HashTable HashTableProofs HashTableMap Bitset BitsetProofs ComponentSet ComponentSetProofs
  Chunk ChunkProofs Archetype ArchetypeProofs Registry RegistryStore RegistryProofs View ViewProofs RegSpec RegSpecProofs Placeholder.

(** [m] asks the pool about handles in [K] only, and does not change it. *)
Definition blind (K : handle → Prop) {X} (m : M registry X) : Prop := ∀ r p, (∀ h, K h → pool_alive p h = pool_alive (rg_pool r) h) →
  m (rg_set_pool r p) = (rg_set_pool (m r).1 p, (m r).2) ∧ rg_pool (m r).1 = rg_pool r.

Section blind.
Context (U : universe) (K : handle → Prop).

Lemma bl_ret {X} (x : X) : blind K (ret x). Proof. done. Qed.
Lemma bl_throw {X} e : blind K (throw e : M registry X). Proof. done. Qed.
Lemma bl_bind {X Y} (m : M registry X) (k : X → M registry Y) : blind K m → (∀ x, blind K (k x)) → blind K (bind m k).
Proof.
  intros Hm Hk r p Hp. destruct (Hm r p Hp) as [E E']. unfold bind. rewrite E. destruct (m r) as [r1 [x|e|]]; cbn [fst snd] in *; [|done|done].
  destruct (Hk x r1 p) as [-> ->]; [by rewrite E'|done].
Qed.
Lemma bl_map {X Y} (f : X → Y) (m : M registry X) : blind K m → blind K (mapM f m).
Proof. intros Hm r p Hp. destruct (Hm r p Hp) as [E E']. unfold mapM. rewrite E. by destruct (m r). Qed.
Lemma bl_arch {X} p (m : M archetype X) : blind K (on_arch p m).
Proof.
  intros r q _. unfold on_arch. destruct p as [a|]; [|done]. cbn [rg_set_pool rg_heap]. destruct (rg_heap r !! a) as [ar|]; [|done]. by destruct (m ar).
Qed.
Lemma bl_arch2 {X} p q (m : M (archetype * archetype) X) : blind K (on_arch2 p q m).
Proof.
  intros r z _. unfold on_arch2. destruct p as [a|]; [|done]. destruct q as [b|]; [|done]. case_decide; [done|]. cbn [rg_set_pool rg_heap].
  destruct (rg_heap r !! a) as [x|]; [|done]. destruct (rg_heap r !! b) as [y|]; [|done]. by destruct (m (x, y)) as [[x' y'] o].
Qed.
Lemma bl_location h : K h → blind K (rg_location h).
Proof.
  intros Hh r p Hp. unfold rg_location, rg_alive. cbn [rg_set_pool rg_pool rg_locs]. rewrite (Hp h Hh). destruct (pool_alive _ h); [|done].
  by destruct (sm_at _ _) as [[]|].
Qed.
Lemma bl_set_location id l : blind K (rg_set_location id l).
Proof. intros r p _. unfold rg_set_location. cbn [rg_set_pool rg_locs]. by destruct (sm_assign _ _ _ _ _). Qed.
Lemma bl_key key mk : blind K (rg_ensure_key U key mk).
Proof.
  intros r p _. unfold rg_ensure_key. cbn [rg_set_pool rg_table rg_heap]. destruct (ht_index _ _ _ _) as [[t i]|]; [|done].
  destruct (ht_deref t i) as [[a|]|]; [| |done].
  - cbn [rg_set_table rg_heap]. destruct (rg_heap r !! a) as [ar|]; [|done]. by destruct (bs_eqb _ _).
  - destruct (ar_new U mk) as [ar|e|]; [|done|done]. destruct (ht_store _ _ _) as [t'|]; [|done]. by destruct (bs_eqb _ _).
Qed.
Lemma bl_search f mk : blind K (rg_with_search U f mk).
Proof.
  intros r p Hp. unfold rg_with_search, bind, get, put. cbn [rg_set_pool rg_search].
  exact (bl_key (f (rg_search r)) mk (rg_set_search r (f (rg_search r))) p Hp).
Qed.
Lemma bl_table {X} (k : htab bitset (option nat) → M registry X) : (∀ t, blind K (k t)) → blind K (let! r := get in k (rg_table r)).
Proof. intros Hk r p. unfold bind, get. cbn [rg_set_pool rg_table]. apply (Hk (rg_table r) r p). Qed.

Lemma bl_set_impl h c : K h → blind K (rg_set_impl U h c).
Proof.
  intros Hh. apply bl_bind; [by apply bl_location|]. intros l. apply bl_bind; [apply bl_arch|]. intros ar. destruct (ar_contains ar c).
  - apply bl_bind; [apply bl_arch|]. intros off. apply bl_ret.
  - apply bl_bind; [apply bl_search|]. intros b. apply bl_bind; [apply bl_arch2|]. intros x. apply bl_bind; [apply bl_arch|]. intros off.
    apply bl_bind; [destruct x.2; [apply bl_set_location|apply bl_ret]|]. intros _. apply bl_bind; [apply bl_set_location|]. intros _. apply bl_ret.
Qed.
Lemma bl_set h c x : K h → blind K (rg_set U h c x).
Proof. intros Hh. apply bl_bind; [by apply bl_set_impl|]. intros ip. destruct x; [apply bl_arch|apply bl_throw]. Qed.
Lemma bl_goi h c x : K h → blind K (rg_get_or_insert U h c x).
Proof.
  intros Hh. apply bl_bind; [by apply bl_set_impl|]. intros ip. apply bl_bind; [|intros _; apply bl_arch].
  destruct (ip.1); [|apply bl_ret]. destruct x; [apply bl_arch|apply bl_throw].
Qed.
Lemma bl_remove h c : K h → blind K (rg_remove U h c).
Proof.
  intros Hh. apply bl_bind; [by apply bl_location|]. intros l. apply bl_bind; [apply bl_arch|]. intros ar. destruct (ar_contains ar c); [|apply bl_ret].
  apply bl_bind; [apply bl_search|]. intros b. apply bl_bind; [apply bl_arch2|]. intros x.
  apply bl_bind; [destruct x.2; [apply bl_set_location|apply bl_ret]|]. intros _. apply bl_set_location.
Qed.
Lemma bl_get h c : K h → blind K (rg_get h c).
Proof. intros Hh. apply bl_bind; [by apply bl_location|]. intros l. apply bl_bind; [apply bl_arch|]. intros off. apply bl_arch. Qed.
Lemma bl_has h cs : K h → blind K (rg_has h cs).
Proof. intros Hh. apply bl_bind; [by apply bl_location|]. intros l. apply bl_bind; [apply bl_arch|]. intros ar. apply bl_ret. Qed.
Lemma bl_visit h : K h → blind K (rg_visit h).
Proof. intros Hh. apply bl_bind; [by apply bl_location|]. intros l. apply bl_bind; [apply bl_arch|]. intros ar. done. Qed.

(** copy *)
Lemma copy_src src src' h ph r : (rg_location h src).2 = (rg_location h src').2 → rg_heap src = rg_heap src' →
  rg_copy_into U src h ph r = rg_copy_into U src' h ph r.
Proof. intros E1 E2. unfold rg_copy_into. by rewrite E1, E2. Qed.
Lemma bl_copy_into src h ph : blind K (rg_copy_into U src h ph).
Proof.
  apply bl_bind; [done|]. intros l. apply bl_bind; [unfold of_opt; by destruct (_ ≫= _)|]. intros ar. apply bl_bind; [apply bl_key|]. intros b.
  apply bl_bind; [apply bl_arch|]. intros x. apply bl_bind; [apply bl_arch|]. intros _. apply bl_bind; [apply bl_set_location|]. intros _. apply bl_ret.
Qed.
Lemma bl_clone_into h ph : K h → blind K (rg_clone_into U h ph).
Proof.
  intros Hh r p Hp. unfold rg_clone_into, bind, get. rewrite (copy_src (rg_set_pool r p) r); [by apply bl_copy_into| |done].
  by rewrite (proj1 (bl_location h Hh r p Hp)).
Qed.

(** Views *)
Lemma bl_vw_chunks p bl rq f js : ∀ log, blind K (vw_chunks U p bl rq f js log).
Proof. induction js as [|j js IH]; intros log; [apply bl_ret|]. cbn [vw_chunks]. apply bl_bind; [apply bl_arch|]. intros log'. apply IH. Qed.
Lemma bl_each rq f : blind K (rg_each U rq f).
Proof.
  apply (bl_table (λ t, vw_archs U rq f (ht_iter t) [])). intros t. generalize ([] : vlog). induction (ht_iter t) as [|e l IH]; intros log; [apply bl_ret|].
  cbn [vw_archs]. apply bl_bind; [apply bl_arch|]. intros ar. apply bl_bind; [|intros log'; apply IH]. destruct (forallb _ _); [apply bl_vw_chunks|apply bl_ret].
Qed.
Lemma bl_vs_chunks p bl rq js : blind K (vs_chunks p bl rq js).
Proof. induction js as [|j js IH]; [apply bl_ret|]. cbn [vs_chunks]. apply bl_bind; [apply bl_arch|]. intros [x|]; [apply bl_ret|done]. Qed.
Lemma bl_single rq : blind K (rg_single U rq).
Proof.
  apply (bl_table (λ t, vs_archs U rq (ht_iter t))). intros t. induction (ht_iter t) as [|e l IH]; [apply bl_ret|].
  cbn [vs_archs]. apply bl_bind; [apply bl_arch|]. intros ar. apply bl_bind; [|intros [x|]; [apply bl_ret|done]]. destruct (forallb _ _); [apply bl_vs_chunks|apply bl_ret].
Qed.
End blind.

(** * One call *)
Section progs.
Context (U : universe).

Lemma rop_blind s op : match op with
    | OSet h _ _ | OGetOrInsert h _ _ | ORemove h _ | OGet h _ | OHas h _ | OVisit h | OAlive h | OCloneInto h _ => known s h
    | OSize | OEach _ _ | OSingle _ => True
    | OCreate _ | ODestroy _ | OClone _ | OReserve | OSync => False
    end → blind (known s) (run_rop U op).
Proof.
  destruct op; intros Hk; try done; cbn [run_rop]; try apply bl_map.
  - by apply bl_set.
  - by apply bl_goi.
  - by apply bl_remove.
  - by apply bl_get.
  - by apply bl_has.
  - by apply bl_visit.
  - intros r p Hp. unfold rg_alive. cbn [rg_set_pool rg_pool]. by rewrite (Hp h Hk).
  - by apply bl_clone_into.
  - by apply bl_each.
  - by apply bl_single.
Qed.

(** move: the pool of the destination is not looked at. *)
Definition blind2 {X} (m : M (registry * registry) X) : Prop := ∀ a b p,
  m (a, rg_set_pool b p) = (((m (a, b)).1.1, rg_set_pool (m (a, b)).1.2 p), (m (a, b)).2) ∧ rg_pool (m (a, b)).1.2 = rg_pool b.
Lemma b2_bind {X Y} (m : M (registry * registry) X) (k : X → M (registry * registry) Y) : blind2 m → (∀ x, blind2 (k x)) → blind2 (bind m k).
Proof.
  intros Hm Hk a b p. destruct (Hm a b p) as [E E']. unfold bind. rewrite E. destruct (m (a, b)) as [[a1 b1] [x|e|]]; cbn [fst snd] in *; [|done|done].
  destruct (Hk x a1 b1 p) as [-> ->]. done.
Qed.
Lemma b2_ret {X} (x : X) : blind2 (ret x). Proof. done. Qed.
Lemma b2_fst {X} (m : M registry X) : blind2 (on_fst m).
Proof. intros a b p. unfold on_fst. cbn [fst snd]. by destruct (m a). Qed.
Lemma b2_snd {X} (m : M registry X) : blind (λ _, False) m → blind2 (on_snd m).
Proof. intros Hm a b p. destruct (Hm b p) as [E E']; [done|]. unfold on_snd. cbn [fst snd]. rewrite E. by destruct (m b). Qed.
Lemma b2_map {X Y} (f : X → Y) (m : M (registry * registry) X) : blind2 m → blind2 (mapM f m).
Proof. intros Hm a b p. destruct (Hm a b p) as [E E']. unfold mapM. rewrite E. by destruct (m (a, b)). Qed.
Lemma b2_move_into h ph : blind2 (rg_move_into U h ph).
Proof.
  apply b2_bind; [apply b2_fst|]. intros l. apply b2_bind; [apply b2_fst|]. intros ar. apply b2_bind; [apply b2_snd, bl_key|]. intros b.
  apply b2_bind.
  - intros x y p. destruct (lc_arch l) as [a|]; [|done]. cbn [fst snd rg_set_pool rg_heap]. destruct (rg_heap x !! a) as [x'|]; [|done].
    destruct (rg_heap y !! b) as [y'|]; [|done]. by destruct (ar_move _ _ _ _) as [[? ?] ?].
  - intros x. apply b2_bind; [apply b2_fst|]. intros _. apply b2_bind; [destruct x.2; [case_decide; [apply b2_ret|apply b2_fst]|apply b2_ret]|]. intros _.
    apply b2_bind; [apply b2_fst|]. intros _. apply b2_bind; [apply b2_snd, bl_arch|]. intros _. apply b2_bind; [apply b2_snd, bl_set_location|]. intros _. apply b2_ret.
Qed.

(** * Calls of a program *)
(** With another pool in registry [j], the call does the same and leaves that pool. *)
Definition commutes (j : nat) (p : pool) (rs : list registry) (m : M (list registry) rres) : Prop :=
  ∀ r rs' o, rs !! j = Some r → m rs = (rs', o) →
  ∃ r', rs' !! j = Some r' ∧ rg_pool r' = rg_pool r ∧ m (<[j := rg_set_pool r p]> rs) = (<[j := rg_set_pool r' p]> rs', o).

Lemma cm_reg_ne i j p rs m : i ≠ j → commutes j p rs (on_reg i m).
Proof.
  intros Hij r rs' o Hr. unfold on_reg. rewrite list_lookup_insert_ne by done. destruct (rs !! i) as [x|] eqn:Hx.
  - destruct (m x) as [x' o'] eqn:Em. intros [= <- <-]. exists r. split_and!; [by rewrite list_lookup_insert_ne|done|]. by rewrite list_insert_commute.
  - intros [= <- <-]. by exists r.
Qed.
Lemma cm_reg K j p rs m : blind K m → (∀ r h, rs !! j = Some r → K h → pool_alive p h = pool_alive (rg_pool r) h) → commutes j p rs (on_reg j m).
Proof.
  intros Hm Hp r rs' o Hr. pose proof (lookup_lt_Some _ _ _ Hr) as Hlt. unfold on_reg. rewrite Hr, list_lookup_insert by done.
  destruct (Hm r p (λ h, Hp r h Hr)) as [E E']. rewrite E. destruct (m r) as [r' o']. cbn [fst snd] in *. intros [= <- <-].
  exists r'. split_and!; [by apply list_lookup_insert|done|]. by rewrite !list_insert_insert.
Qed.
Lemma cm_regs_ne i k j p rs m : i ≠ j → k ≠ j → commutes j p rs (on_regs i k m).
Proof.
  intros Hij Hkj r rs' o Hr. unfold on_regs. rewrite !(list_lookup_insert_ne _ j) by done. destruct (rs !! i) as [a|] eqn:Ha; [|intros [= <- <-]; by exists r].
  destruct (rs !! k) as [b|] eqn:Hb; [|intros [= <- <-]; by exists r]. destruct (m (a, b)) as [[a' b'] o'] eqn:Em. intros [= <- <-].
  exists r. split_and!; [by rewrite !list_lookup_insert_ne|done|]. by rewrite !(list_insert_commute _ j) by done.
Qed.
Lemma cm_regs_snd i j p rs m : i ≠ j → blind2 m → commutes j p rs (on_regs i j m).
Proof.
  intros Hij Hm r rs' o Hr. pose proof (lookup_lt_Some _ _ _ Hr) as Hlt. unfold on_regs. rewrite (list_lookup_insert_ne _ j) by done.
  rewrite list_lookup_insert by done. destruct (rs !! i) as [a|] eqn:Ha; [|intros [= <- <-]; by exists r]. rewrite Hr.
  destruct (Hm a r p) as [E E']. rewrite E. destruct (m (a, r)) as [[a' r'] o'] eqn:Em. cbn [fst snd] in *. intros [= <- <-].
  exists r'. split_and!; [apply list_lookup_insert; by rewrite insert_length|done|]. rewrite (list_insert_commute _ j i) by done. rewrite !list_insert_insert. by rewrite (list_insert_commute _ j i).
Qed.
Lemma cm_regs_fst k j p rs (m : registry → M registry rres) : k ≠ j →
  (∀ r b, rs !! j = Some r → m (rg_set_pool r p) b = m r b) →
  commutes j p rs (on_regs j k (λ ab, let '(b', o) := m ab.1 ab.2 in ((ab.1, b'), o))).
Proof.
  intros Hkj Hm r rs' o Hr. pose proof (lookup_lt_Some _ _ _ Hr) as Hlt. unfold on_regs. rewrite (list_lookup_insert_ne _ j k) by done.
  rewrite list_lookup_insert by done. rewrite Hr. destruct (rs !! k) as [b|] eqn:Hb; [|intros [= <- <-]; by exists r]. cbn [fst snd].
  rewrite (Hm r b Hr). destruct (m r b) as [b' o'] eqn:Em. intros [= <- <-]. exists r.
  rewrite (list_insert_id rs) by done. split_and!; [by rewrite list_lookup_insert_ne|done|]. by rewrite list_insert_insert, list_insert_commute.
Qed.

Lemma sop_commutes j s p rs op : early j s op → (∀ r h, rs !! j = Some r → known s h → pool_alive p h = pool_alive (rg_pool r) h) →
  commutes j p rs (run_sop U op).
Proof.
  intros He Hp. assert (∀ r h, rs !! j = Some r → known s h → (rg_location h (rg_set_pool r p)).2 = (rg_location h r).2) as Hl.
  { intros r h Hr Hh. by rewrite (proj1 (bl_location (known s) h Hh r p (λ x, Hp r x Hr))). }
  destruct op as [i op|i h k|i h k ph|i h k|i h k ph]; cbn [run_sop early] in *.
  - destruct (decide (i = j)) as [->|]; [|by apply cm_reg_ne]. destruct He as [|He]; [done|]. eapply cm_reg; [by apply (rop_blind s)|done].
  - destruct He as (Hik & Hkj & Hh). destruct (decide (i = j)) as [->|]; [|by apply cm_regs_ne].
    apply (cm_regs_fst k j p rs (λ a, mapM RHandle (rg_copy U a h))); [done|]. intros r b Hr. unfold mapM, rg_copy, bind.
    destruct (rg_allocate b) as [b' [x|e|]]; [|done|done]. rewrite (copy_src U (rg_set_pool r p) r); [done| |done]. by apply Hl, Hh.
  - destruct He as (Hik & Hh). destruct (decide (i = j)) as [->|].
    + apply (cm_regs_fst k j p rs (λ a, mapM RHandle (rg_copy_into U a h ph))); [done|]. intros r b Hr. unfold mapM.
      rewrite (copy_src U (rg_set_pool r p) r); [done| |done]. by apply Hl, Hh.
    + destruct (decide (k = j)) as [->|]; [|by apply cm_regs_ne]. apply cm_regs_snd; [done|]. intros a b q. cbn [fst snd].
      destruct (bl_map (λ _, False) RHandle _ (bl_copy_into U (λ _, False) a h ph) b q) as [E E']; [done|]. rewrite E.
      destruct (mapM RHandle (rg_copy_into U a h ph) b) as [b' o']. by cbn [fst snd] in *.
  - destruct He as (Hik & Hij & Hkj). by apply cm_regs_ne.
  - destruct He as (Hik & Hij). destruct (decide (k = j)) as [->|]; [|by apply cm_regs_ne]. apply cm_regs_snd; [done|]. apply b2_map, b2_move_into.
Qed.

Lemma calls_commute j s p ops : Forall (early j s) ops → ∀ rs r rs' os, rs !! j = Some r →
  (∀ h, known s h → pool_alive p h = pool_alive (rg_pool r) h) → calls U ops rs = (rs', os) →
  ∃ r', rs' !! j = Some r' ∧ rg_pool r' = rg_pool r ∧ calls U ops (<[j := rg_set_pool r p]> rs) = (<[j := rg_set_pool r' p]> rs', os).
Proof.
  induction 1 as [|op ops He _ IH]; intros rs r rs' os Hr Hp; cbn [calls].
  - intros [= <- <-]. eauto.
  - destruct (run_sop U op rs) as [rs1 o] eqn:E1. destruct (calls U ops rs1) as [rs2 os2] eqn:E2. intros [= <- <-].
    destruct (sop_commutes j s p rs op He) with (r := r) (rs' := rs1) (o := o) as (r1 & Hr1 & Ep1 & ->); [intros ? ? ? ?; simplify_eq; auto|done|done|].
    destruct (IH rs1 r1 rs2 os2) as (r2 & Hr2 & Ep2 & ->); [done|by rewrite Ep1|done|]. exists r2. split; [done|]. split; [congruence|done].
Qed.
Lemma calls_app ops1 ops2 rs : calls U (ops1 ++ ops2) rs = let '(rs1, os1) := calls U ops1 rs in let '(rs2, os2) := calls U ops2 rs1 in (rs2, os1 ++ os2).
Proof.
  revert rs. induction ops1 as [|op ops1 IH]; intros rs; cbn [app calls]; [by destruct (calls U ops2 rs)|]. destruct (run_sop U op rs) as [rs1 o].
  rewrite IH. destruct (calls U ops1 rs1) as [rs2 os2]. by destruct (calls U ops2 rs2).
Qed.
End progs.

(** * Filling any placeholder at all *)
Section fill.
Context (U : universe).
Hypothesis HU : u_wf U.

(** The copy is placed, and the entry of its slot leads to it, whatever was there. *)
Lemma copy_any s n r iss dd pend hp w h m ph :
  rinv U s n r iss dd pend hp w → (sm_size (rg_locs r) + 1 < w32)%N → w !! h = Some m → map_Forall (λ c _, u_copyable U c = true) m →
  ∃ r' hp' b q cs rowss, rg_clone_into U h ph r = (r', Ok ph) ∧ st_inv U s r' hp' ∧ rg_pool r' = rg_pool r ∧ sm_wf w32 (rg_locs r') ∧
    sm_abs (rg_locs r') = <[h_id ph := loc_of (b, q)]> (sm_abs (rg_locs r)) ∧ hp' !! b = Some (cs, rowss) ∧ at_ rowss q = Some (ph, m) ∧ full cs (ph, m).
Proof.
  intros H Hroom Hw Hcp. destruct (loc_in U H h m Hw) as (a & p & cs & rowss & rows & El & Ha & Hp & Hrows & Hf & Hl).
  destruct (st_arch U _ _ _ _ _ (rv_st _ _ _ _ _ _ _ _ _ H) Ha) as (ar & Har & Hrep). cbn [fst snd] in Hrep.
  pose proof (rv_full _ _ _ _ _ _ _ _ _ H _ _ Ha) as Hfs. cbn [fst snd] in Hfs.
  destruct (ensure_spec U HU s r hp (ms_ids (ar_comps ar)) (ar_comps ar)) as (r1 & o & E1 & Ep1 & El1 & Ho); [apply H|apply Hrep| |done|].
  { rewrite (ap_cs _ _ _ _ _ Hrep). by apply (si_ent _ _ _ _ (rv_st _ _ _ _ _ _ _ _ _ H) _ _ Ha). }
  rewrite (ap_cs _ _ _ _ _ Hrep) in Ho. destruct Ho as [(b & hp1 & cs2 & rowss2 & -> & He & Hst1 & Hb & Hss & Hnn)|(_ & Hg & _)].
  2:{ exfalso. destruct (si_lay _ _ _ _ (rv_st _ _ _ _ _ _ _ _ _ H) _ _ Ha) as [? Hy]. cbn [fst] in Hy. congruence. }
  destruct (st_arch U _ _ _ _ _ Hst1 Hb) as (br & Hbr & Hrep2). cbn [fst snd] in Hrep2.
  assert (restrict cs2 m = m) as Eres.
  { apply restrict_all. intros x Hx. apply Hss. by apply (full_elem _ _ _ _ Hf). }
  destruct (ar_copy_spec U HU s s ar cs rowss br cs2 rowss2 p (h, m) Hrep Hfs Hrep2 Hp) as (br' & rowss' & q & Ec & Hs & Hrep' & Hins & Hlen & Hnh).
  { intros c Hc _. apply (full_elem _ _ _ _ Hf) in Hc as [v Hv]. by apply (Hcp c v). }
  cbn [fst snd] in Hins. rewrite Eres in Hins.
  pose proof (st_put U _ _ _ _ _ _ _ _ _ Hst1 Hbr Hb Hs Hrep') as Hst2.
  set (r2 := rg_set_heap r1 (<[b := br']> (rg_heap r1))) in *. set (hp2 := <[b := (cs2, rowss')]> hp1) in *.
  assert (hp2 !! b = Some (cs2, rowss')) as Hb2 by (apply list_lookup_insert; by eapply lookup_lt_Some).
  assert (rg_heap r2 !! b = Some br') as Hbr2 by (apply list_lookup_insert; by eapply lookup_lt_Some).
  assert (at_ rowss' q = Some (h, m)) as Hq by (destruct Hins as [_ ->]; by rewrite decide_True).
  destruct (ar_put_entity_spec U s br' cs2 rowss' q (h, m) ph Hrep' Hq) as (br'' & Ee & Hs' & Hrep''). cbn [snd] in Hrep''.
  pose proof (st_put U _ _ _ _ _ _ _ _ _ Hst2 Hbr2 Hb2 Hs' Hrep'') as Hst3. unfold hp2 in Hst3. rewrite list_insert_insert in Hst3.
  set (r3 := rg_set_heap r2 (<[b := br'']> (rg_heap r2))) in *.
  destruct (set_loc_spec r3 (h_id ph) (loc_of (b, q))) as (mm & E3 & Hwf & Habs).
  { unfold r3, r2. cbn [rg_set_heap rg_locs]. rewrite El1. apply H. }
  { right. unfold r3, r2. cbn [rg_set_heap rg_locs]. by rewrite El1. }
  exists (rg_set_locs r3 mm), (<[b := (cs2, alter (<[q.2 := (ph, m)]>) q.1 rowss')]> hp1), b, q, cs2, (alter (<[q.2 := (ph, m)]>) q.1 rowss').
  split_and!.
  - unfold rg_clone_into. rewrite (bind_ok _ _ r r r) by done. unfold rg_copy_into. rewrite El. unfold bind at 1. cbn [snd loc_of lc_arch lc_chunk lc_row fst].
    cbn [mbind option_bind]. rewrite Har. unfold of_opt. rewrite (bind_ok _ _ _ _ _ (eq_refl : ret ar r = (r, Ok ar))).
    unfold rg_ensure. rewrite (bind_ok _ _ _ _ _ E1), (bind_ok _ _ _ _ _ (on_arch_run _ _ _ _ _ _ Hbr Ec)).
    fold r2. rewrite (bind_ok _ _ _ _ _ (on_arch_run _ _ _ _ _ _ Hbr2 Ee)). fold r3. by rewrite (bind_ok _ _ _ _ _ E3).
  - by apply st_frame.
  - unfold r3, r2. cbn [rg_set_locs rg_set_heap rg_pool]. done.
  - done.
  - cbn [rg_set_locs rg_locs]. rewrite Habs. unfold r3, r2. cbn [rg_set_heap rg_locs]. by rewrite El1.
  - apply list_lookup_insert. by eapply lookup_lt_Some.
  - rewrite (at_put _ _ _ _ _ Hq). by rewrite decide_True.
  - apply full_of. intros x. rewrite (Hss x). by apply (full_elem _ h).
Qed.
End fill.
