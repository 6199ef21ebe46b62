(** Lemmas for C74. *)
From Verif Require Import Base Bits Layout PropLayout HandlePool HandleSpec HandlePoolProofs SparseMap SparseMapProofs
  HashTable HashTableProofs HashTableMap Bitset BitsetProofs ComponentSet ComponentSetProofs
  Chunk ChunkProofs Archetype ArchetypeProofs Registry RegistryStore RegistryProofs View ViewProofs RegSpec RegSpecProofs
  RegObs RegRun PropRegistry EachOps.

(** * Calls that change values only *)
Definition ashape (a : archetype) := (ar_max a, ar_blocks a, ar_comps a, ck_size <$> ar_chunks a).
Definition same_struct (r r' : registry) : Prop :=
  rg_table r' = rg_table r ∧ rg_locs r' = rg_locs r ∧ ashape <$> rg_heap r' = ashape <$> rg_heap r.

Lemma ss_refl r : same_struct r r.
Proof. done. Qed.
Lemma ss_trans r r1 r2 : same_struct r r1 → same_struct r1 r2 → same_struct r r2.
Proof. intros (A & B & C) (D & E & F). repeat split; congruence. Qed.

Definition kck {X} (m : M chunk X) : Prop := ∀ k, ck_size (m k).1 = ck_size k.
Definition kar {X} (m : M archetype X) : Prop := ∀ a, ashape (m a).1 = ashape a.
Definition krg {X} (m : M registry X) : Prop := ∀ r, same_struct r (m r).1.

Lemma kck_bind {X Y} (m : M chunk X) (f : X → M chunk Y) : kck m → (∀ x, kck (f x)) → kck (bind m f).
Proof.
  intros Hm Hf k. unfold bind. specialize (Hm k). destruct (m k) as [k' [x|e|]]; cbn [fst] in *; [|done..]. by rewrite Hf.
Qed.
Lemma kar_bind {X Y} (m : M archetype X) (f : X → M archetype Y) : kar m → (∀ x, kar (f x)) → kar (bind m f).
Proof.
  intros Hm Hf k. unfold bind. specialize (Hm k). destruct (m k) as [k' [x|e|]]; cbn [fst] in *; [|done..]. by rewrite Hf.
Qed.
Lemma krg_bind {X Y} (m : M registry X) (f : X → M registry Y) : krg m → (∀ x, krg (f x)) → krg (bind m f).
Proof.
  intros Hm Hf k. unfold bind. specialize (Hm k). destruct (m k) as [k' [x|e|]]; cbn [fst] in *; [|done..].
  eapply ss_trans; [done|]. apply Hf.
Qed.
Lemma krg_mapM {X Y} (f : X → Y) (m : M registry X) : krg m → krg (mapM f m).
Proof. intros H r. unfold mapM. specialize (H r). by destruct (m r). Qed.

Lemma kar_on_chunk {X} i (m : M chunk X) : kck m → kar (on_chunk i m).
Proof.
  intros Hm a. unfold on_chunk. destruct (ar_chunks a !! i) as [k|] eqn:Hk; [|done]. specialize (Hm k).
  destruct (m k) as [k' o]; cbn [fst] in *. unfold ashape, ar_with_chunks. cbn. f_equal.
  rewrite list_fmap_insert, Hm. apply list_insert_id. by rewrite list_lookup_fmap, Hk.
Qed.
Lemma krg_on_arch {X} p (m : M archetype X) : kar m → krg (on_arch p m).
Proof.
  intros Hm r. unfold on_arch. destruct p as [a|]; [|done]. destruct (rg_heap r !! a) as [ar|] eqn:Ha; [|done].
  specialize (Hm ar). destruct (m ar) as [ar' o]; cbn [fst] in *. split; [done|]. split; [done|]. cbn.
  rewrite list_fmap_insert, Hm. apply list_insert_id. by rewrite list_lookup_fmap, Ha.
Qed.

Lemma kck_read o : kck (read_obj o).
Proof. intros k. unfold read_obj. by destruct (_ !! _). Qed.
Lemma kck_assign o c : kck (assign_obj o c).
Proof. intros k. unfold assign_obj. by destruct (_ !! _). Qed.
Lemma kck_fetch bl c i : kck (fetch_pointer bl c i).
Proof. intros k. unfold fetch_pointer. by destruct (sm_at bl c) as [[?|]|]. Qed.
Lemma kck_new bl rq i : kck (it_new bl rq i).
Proof.
  induction rq as [|q rq IH]; [done|]. cbn [it_new]. apply kck_bind; [apply kck_fetch|]. intros p. by apply kck_bind.
Qed.
Lemma kck_deref ps : kck (it_deref ps).
Proof.
  induction ps as [|q ps IH]; [done|]. cbn [it_deref]. apply kck_bind; [apply kck_read|]. intros p. by apply kck_bind.
Qed.
Lemma kck_forM {A} (l : list A) (f : A → M chunk unit) : (∀ x, kck (f x)) → kck (forM l f).
Proof. intros H. induction l as [|x l IH]; [done|]. cbn [forM]. by apply kck_bind. Qed.

Section keep.
Context (U : universe).

Lemma kck_rows rq f e : ∀ n ps log, kck (vw_rows U n rq f ps e log).
Proof.
  induction n as [|n IH]; intros ps log; [done|]. cbn [vw_rows]. destruct (it_eqb ps e); [done|].
  apply kck_bind; [|intros ?; apply IH]. apply kck_bind; [apply kck_deref|]. intros xs.
  apply kck_bind; [|done]. apply kck_forM. intros [q p]. cbn [fst snd]. destruct (vr_mut q); [|done].
  destruct (f _ _ _); [apply kck_assign|done].
Qed.
Lemma kck_chunk bl rq f log : kck (vw_chunk U bl rq f log).
Proof.
  apply kck_bind; [done|]. intros k. apply kck_bind; [apply kck_new|]. intros b. apply kck_bind; [apply kck_new|].
  intros e. apply kck_rows.
Qed.
Lemma kck_first bl rq : kck (vw_first bl rq).
Proof.
  apply kck_bind; [done|]. intros k. apply kck_bind; [apply kck_new|]. intros b. apply kck_bind; [apply kck_new|].
  intros e. destruct (it_eqb b e); [done|]. apply kck_bind; [apply kck_deref|]. done.
Qed.
Lemma krg_arch p : krg (rg_arch p).
Proof. by apply krg_on_arch. Qed.
Lemma krg_each rq f : krg (rg_each U rq f).
Proof.
  apply krg_bind; [done|]. intros r. generalize (ht_iter (rg_table r)), ([] : vlog). clear r. induction l as [|e l IH]; intros log; [done|].
  cbn [vw_archs]. apply krg_bind; [apply krg_arch|]. intros ar. apply krg_bind; [|intros ?; apply IH].
  destruct (forallb _ _); [|done]. generalize (seq 0 (length (ar_chunks ar))). intros js. revert log.
  induction js as [|j js IHj]; intros log; [done|]. cbn [vw_chunks]. apply krg_bind; [|intros ?; apply IHj].
  apply krg_on_arch, kar_on_chunk, kck_chunk.
Qed.
Lemma krg_single rq : krg (rg_single U rq).
Proof.
  apply krg_bind; [done|]. intros r. generalize (ht_iter (rg_table r)). clear r. induction l as [|e l IH]; [done|].
  cbn [vs_archs]. apply krg_bind; [apply krg_arch|]. intros ar. apply krg_bind; [|intros [?|]; [done|apply IH]].
  destruct (forallb _ _); [|done]. generalize (seq 0 (length (ar_chunks ar))). intros js.
  induction js as [|j js IHj]; [done|]. cbn [vs_chunks]. apply krg_bind; [|intros [?|]; [done|apply IHj]].
  apply krg_on_arch, kar_on_chunk, kck_first.
Qed.
Lemma krg_location h : krg (rg_location h).
Proof. intros r. unfold rg_location. destruct (rg_alive r h); [|done]. by destruct (sm_at _ _) as [[?|]|]. Qed.
Lemma kar_ref c j i : kar (ar_ref c j i).
Proof.
  apply kar_bind; [done|]. intros a. apply kar_bind; [by apply kar_on_chunk|]. intros k. destruct (decide _); [done|].
  intros a'. unfold fetch_pointer. by destruct (sm_at _ _) as [[?|]|].
Qed.
Lemma krg_get h c : krg (rg_get h c).
Proof.
  apply krg_bind; [apply krg_location|]. intros l. apply krg_bind; [apply krg_on_arch, kar_ref|]. intros off.
  apply krg_on_arch, kar_on_chunk, kck_read.
Qed.
Lemma krg_has h cs : krg (rg_has h cs).
Proof. apply krg_bind; [apply krg_location|]. intros l. apply krg_bind; [apply krg_arch|]. done. Qed.
Lemma krg_visit h : krg (rg_visit h).
Proof. apply krg_bind; [apply krg_location|]. intros l. apply krg_bind; [apply krg_arch|]. done. Qed.
Lemma krg_at_ptr {X} p (m : N → M chunk X) : (∀ o, kck (m o)) → krg (at_ptr p m).
Proof. intros H. apply krg_on_arch, kar_on_chunk, H. Qed.

Lemma mapM_fst {S A B} (f : A → B) (m : M S A) s : (mapM f m s).1 = (m s).1.
Proof. unfold mapM. by destruct (m s). Qed.

Lemma calm_struct b n r s iss hp op : rinv U b n r iss (sr_dead s) (sr_pending s) hp (sr_world s) → calm_op U s op →
  same_struct r (run_rop U op r).1.
Proof.
  intros Hr [_ Hc]. destruct op; try done; cbn [run_rop];
    try (apply krg_mapM; first [apply krg_get|apply krg_has|apply krg_visit|apply krg_each|apply krg_single]).
  - rewrite mapM_fst. destruct (sr_world s !! h) as [m|] eqn:Hw.
    + destruct (Hc m eq_refl) as [v Hv]. destruct (set_impl_present U _ _ _ _ _ _ _ _ _ _ _ _ Hr Hw Hv) as (a & p & cs & rowss & ar & E & _).
      unfold rg_set. rewrite (bind_ok _ _ _ _ _ E). destruct x; [|done]. cbn [fst snd]. apply krg_at_ptr. intros o. apply kck_assign.
    + destruct (out_specs U _ _ _ _ _ _ _ _ h Hr Hw) as (_ & E & _). by rewrite E.
  - rewrite mapM_fst. destruct (sr_world s !! h) as [m|] eqn:Hw.
    + destruct (Hc m eq_refl) as [v Hv]. destruct (set_impl_present U _ _ _ _ _ _ _ _ _ _ _ _ Hr Hw Hv) as (a & p & cs & rowss & ar & E & _).
      unfold rg_get_or_insert. rewrite (bind_ok _ _ _ _ _ E). cbn [fst snd]. apply krg_bind; [done|]. intros _. apply krg_at_ptr. intros o. apply kck_read.
    + destruct (out_specs U _ _ _ _ _ _ _ _ h Hr Hw) as (_ & _ & E & _). by rewrite E.
  - rewrite mapM_fst. destruct (sr_world s !! h) as [m|] eqn:Hw.
    + destruct (loc_in U Hr h m Hw) as (a & p & cs & rowss & rows & El & Ha & Hp & Hrows & Hf & Hl).
      destruct (st_arch U _ _ _ _ _ (rv_st _ _ _ _ _ _ _ _ _ Hr) Ha) as (ar & Har & Hrep). cbn [fst snd] in Hrep.
      unfold rg_remove. rewrite (bind_ok _ _ _ _ _ El). cbn [lc_arch]. rewrite (bind_ok _ _ _ _ _ (rg_arch_run _ _ _ Har)).
      rewrite (ar_contains_spec U _ _ _ _ _ Hrep), bool_decide_false; [done|]. rewrite (full_elem _ _ _ _ Hf), (Hc m eq_refl). by intros [].
    + destruct (out_specs U _ _ _ _ _ _ _ _ h Hr Hw) as (_ & _ & _ & E & _). by rewrite E.
Qed.
End keep.

(** * The abstract side *)
Lemma alike_refl s : alike s s.
Proof. done. Qed.
Lemma alike_trans s s1 s2 : alike s s1 → alike s1 s2 → alike s s2.
Proof. intros (A1 & A2 & A3 & A4 & A5 & A6) (B1 & B2 & B3 & B4 & B5 & B6). split_and!; [congruence..|]. intros h. by rewrite B6, A6. Qed.
Lemma alike_sym s s1 : alike s s1 → alike s1 s.
Proof. intros (A1 & A2 & A3 & A4 & A5 & A6). split_and!; [congruence..|]. intros h. by rewrite A6. Qed.

Lemma alike_at s s' h m : alike s s' → sr_world s !! h = Some m →
  ∃ m', sr_world s' !! h = Some m' ∧ ∀ c, is_Some (m' !! c) ↔ is_Some (m !! c).
Proof.
  intros (_ & _ & _ & _ & _ & H) Hw. specialize (H h). rewrite Hw in H. cbn in H.
  destruct (sr_world s' !! h) as [m'|]; [|done]. exists m'. split; [done|]. intros c. injection H as H.
  by rewrite <- !elem_of_dom, H.
Qed.
Lemma alike_none s s' h : alike s s' → sr_world s !! h = None → sr_world s' !! h = None.
Proof.
  intros (_ & _ & _ & _ & _ & H) Hw. specialize (H h). rewrite Hw in H. cbn in H. by destruct (sr_world s' !! h).
Qed.
Lemma alike_dom s s' : alike s s' → dom (sr_world s') = dom (sr_world s).
Proof.
  intros H. apply set_eq. intros h. rewrite !elem_of_dom. split; intros [m Hm].
  - destruct (alike_at _ _ _ _ (alike_sym _ _ H) Hm) as (m' & -> & _). eauto.
  - destruct (alike_at _ _ _ _ H Hm) as (m' & -> & _). eauto.
Qed.

Section alike.
Context (U : universe).

Lemma alike_calm s s' op : alike s s' → calm_op U s op → calm_op U s' op.
Proof.
  intros Ha [Hp Hc]. pose proof Ha as (A1 & A2 & A3 & _).
  assert (∀ h (c : cid), (∀ m, sr_world s !! h = Some m → is_Some (m !! c)) → ∀ m, sr_world s' !! h = Some m → is_Some (m !! c)) as Hs.
  { intros h c H m Hm. destruct (alike_at _ _ _ _ (alike_sym _ _ Ha) Hm) as (m' & Hm' & Hd). apply Hd. by apply H. }
  destruct op; try done; cbn [permitted] in *.
  - destruct Hp as (P1 & P2). split; cbn [permitted]; eauto.
  - destruct Hp as (P1 & P2). split; cbn [permitted]; eauto.
  - split; [done|]. intros m Hm. destruct (alike_at _ _ _ _ (alike_sym _ _ Ha) Hm) as (m' & Hm' & Hd).
    specialize (Hc _ Hm'). specialize (Hd c). rewrite Hc in Hd. destruct (m !! c); [|done]. by destruct (proj2 Hd ltac:(eauto)).
Qed.

Lemma alike_with_world s w : (∀ h, dom (D := gset cid) <$> w !! h = dom (D := gset cid) <$> sr_world s !! h) → alike s (with_world s w).
Proof. done. Qed.
Lemma alike_insert s h m m' : sr_world s !! h = Some m → dom (D := gset cid) m' = dom m → alike s (with_world s (<[h := m']> (sr_world s))).
Proof.
  intros Hm Hd. apply alike_with_world. intros g. destruct (decide (g = h)) as [->|Hn].
  - rewrite lookup_insert, Hm. cbn. by rewrite Hd.
  - by rewrite lookup_insert_ne.
Qed.

Lemma calm_alike s op o s' : calm_op U s op → rnext U s op o s' → alike s s'.
Proof.
  intros [Hp Hc] Hn. destruct op; try done; cbn [rnext] in Hn.
  - destruct (sr_world s !! h) as [m|] eqn:Hw; [|by destruct Hn as [_ ->]]. destruct x; [|by destruct Hn as [_ ->]].
    destruct (Hc m eq_refl) as [v0 Hv]. destruct Hn as [[_ ->]|(_ & E & _)]; [|congruence].
    apply (alike_insert _ _ m); [done|]. apply set_eq. intros y. rewrite !elem_of_dom. rewrite lookup_insert_is_Some'. split; [intros [<-|?]; eauto|eauto].
  - destruct (sr_world s !! h) as [m|] eqn:Hw; [|by destruct Hn as [_ ->]]. destruct (Hc m eq_refl) as [v0 Hv]. rewrite Hv in Hn. by destruct Hn as [_ ->].
  - destruct (sr_world s !! h) as [m|] eqn:Hw; [|by destruct Hn as [_ ->]]. specialize (Hc m eq_refl).
    destruct Hn as [[_ ->]|(_ & [? E] & _)]; [|congruence]. rewrite delete_notin by done. by apply (alike_insert _ _ m).
  - destruct (sr_world s !! h) as [m|] eqn:Hw; by destruct Hn as [_ ->].
  - destruct (sr_world s !! h) as [m|] eqn:Hw; [|by destruct Hn as [_ ->]]. by destruct Hn as (b & _ & _ & ->).
  - destruct (sr_world s !! h) as [m|] eqn:Hw; [|by destruct Hn as [_ ->]]. by destruct Hn as (b & _ & _ & _ & ->).
  - by destruct Hn as (b & _ & _ & _ & ->).
  - by destruct Hn as [_ ->].
  - destruct Hn as (es & w' & He & _ & Hca & ->). apply alike_with_world. intros h. pose proof Hca as [Hc1 Hc2]. pose proof He as [Hnd Hes].
    destruct (decide (h ∈ es.*1)) as [Hin|Hin]; [|by rewrite Hc2].
    apply elem_of_list_fmap in Hin as ([h' m] & E & Hin). cbn in E. subst h'. pose proof Hin as Hin'. apply elem_of_list_lookup in Hin as [k Hk].
    destruct (Hc1 _ _ _ Hk) as (m' & -> & Has). apply Hes in Hin' as [-> _]. cbn. f_equal. apply set_eq. intros c. rewrite !elem_of_dom, Has.
    destruct (m !! c); [|done]. destruct (f _ _ c); split; eauto.
  - by destruct Hn as [-> _].
Qed.

Lemma rnext_no_ub s op s' : ¬ rnext U s op UB s'.
Proof. intros H. apply (snext_no_ub U [s] (At 0 op) [s']). exists s, s'. done. Qed.

Hypothesis HU : u_wf U.

(** One call. *)
Lemma calm_step n r s op : reached U n r s → below_wrap (2 * S n) → sr_failed s = false → calm_op U s op →
  ∃ r' o s', run_rop U op r = (r', o) ∧ o ≠ UB ∧ rnext U s op o s' ∧ reached U (S n) r' s' ∧ same_struct r r' ∧ alike s s'.
Proof.
  intros Hr Hbw Hf Hc. destruct (run_rop U op r) as [r' o] eqn:E. pose proof Hc as [Hp Hc'].
  destruct (reached_ri U HU _ _ _ Hr (bw_half _ Hbw)) as (iss & hp & [_ H _]).
  pose proof (calm_struct U _ _ _ _ _ _ _ H Hc) as Hs. rewrite E in Hs. cbn [fst] in Hs.
  destruct (reached_step U HU _ _ _ op _ _ Hr Hbw Hp E) as [(s' & Hn & Hr' & _)|[_ Hh]].
  - exists r', o, s'. split; [done|]. split; [intros ->; by apply rnext_no_ub in Hn|]. split; [done|]. split; [done|]. split; [done|].
    by eapply calm_alike.
  - exfalso. destruct op; cbn [rhazard] in Hh; try done.
    + destruct Hh as (_ & m & Hm & Hmc). destruct (Hc' _ Hm). congruence.
    + destruct Hh as (_ & m & Hm & Hmc). destruct (Hc' _ Hm). congruence.
    + destruct Hh as (_ & m & Hm & [v Hmc]). specialize (Hc' _ Hm). congruence.
    + destruct Hh; congruence.
    + destruct Hh; congruence.
Qed.

Lemma iters_same ws r r' : same_struct r r' → iters_ok ws r r' = true.
Proof.
  intros (A & B & C). destruct ws as [|w ws]; [done|]. unfold iters_ok. rewrite A, !bool_decide_true by done. cbn [andb].
  apply Is_true_true, forallb_True, Forall_forall. intros p _. apply bool_decide_spec. unfold chunk_count. destruct p as [a|]; [|done]. cbn.
  apply (f_equal (.!! a)) in C. rewrite !list_lookup_fmap in C.
  destruct (rg_heap r' !! a) as [x|], (rg_heap r !! a) as [y|]; try done. cbn in *. unfold ashape in C.
  assert (ck_size <$> ar_chunks x = ck_size <$> ar_chunks y) as E by congruence. apply (f_equal length) in E. rewrite !fmap_length in E. by rewrite E.
Qed.
(** * Where the rows are *)
Lemma cur_arch n0 r0 s0 iss0 hp0 n r s (a : nat) cs rowss ar0 : ri U (2 * n0) r0 s0 iss0 hp0 →
  reached U n r s → below_wrap (2 * n) → same_struct r0 r → alike s0 s →
  hp0 !! a = Some (cs, rowss) → rg_heap r0 !! a = Some ar0 →
  ∃ b ar rowss', rg_heap r !! a = Some ar ∧ ar_repr U b ar cs rowss' ∧ fulls cs rowss' ∧ ar_blocks ar = ar_blocks ar0 ∧
    (fmap fst) <$> rowss' = (fmap fst) <$> rowss ∧ (∀ p h m, at_ rowss' p = Some (h, m) → sr_world s !! h = Some m).
Proof.
  intros [_ H0 _] Hr Hbw (T1 & T2 & T3) Hal Ha Har0. destruct (reached_ri U HU _ _ _ Hr Hbw) as (iss & hp & [_ H _]).
  destruct (st_arch U _ _ _ _ _ (rv_st _ _ _ _ _ _ _ _ _ H0) Ha) as (ar0' & E & Hrep0). rewrite Har0 in E. injection E as <-. cbn [fst snd] in Hrep0.
  pose proof (f_equal (.!! a) T3) as T. rewrite !list_lookup_fmap, Har0 in T. destruct (rg_heap r !! a) as [ar|] eqn:Har; [|done]. cbn in T.
  assert (ar_max ar = ar_max ar0 ∧ ar_blocks ar = ar_blocks ar0 ∧ ar_comps ar = ar_comps ar0 ∧ ck_size <$> ar_chunks ar = ck_size <$> ar_chunks ar0) as (Em & Eb & Ec & Ek).
  { unfold ashape in T. split_and!; congruence. }
  destruct (Forall2_lookup_l _ _ _ _ _ (si_heap _ _ _ _ (rv_st _ _ _ _ _ _ _ _ _ H)) Har) as ([cs' rowss'] & Ha' & Hrep). cbn [fst snd] in Hrep.
  assert (cs' = cs) as -> by (rewrite <- (ap_cs _ _ _ _ _ Hrep), <- (ap_cs _ _ _ _ _ Hrep0); by rewrite Ec).
  assert (∀ b x y, ar_repr U b x cs y → length <$> y = ck_size <$> ar_chunks x) as Hlen.
  { intros b x y Hx. apply list_eq. intros i. rewrite !list_lookup_fmap. pose proof (ap_ks _ _ _ _ _ Hx) as Hks.
    destruct (y !! i) as [rows|] eqn:Hy.
    - destruct (Forall2_lookup_r _ _ _ _ _ Hks Hy) as (k & -> & Hk). cbn. f_equal. symmetry. apply (cr_size _ _ _ _ _ _ _ Hk).
    - apply (Forall2_length) in Hks. apply lookup_ge_None in Hy. by rewrite (proj2 (lookup_ge_None _ _)) by lia. }
  pose proof (Hlen _ _ _ Hrep) as L1. pose proof (Hlen _ _ _ Hrep0) as L0.
  eexists _, ar, rowss'. split; [done|]. split; [exact Hrep|]. split; [apply (rv_full _ _ _ _ _ _ _ _ _ H _ _ Ha')|]. split; [done|].
  assert (∀ p h m, at_ rowss' p = Some (h, m) → hrow hp (a, p) = Some (h, m)) as Hrow' by (intros p h m Hp; unfold hrow; cbn; by rewrite Ha').
  assert (∀ p h m, at_ rowss p = Some (h, m) → hrow hp0 (a, p) = Some (h, m)) as Hrow0 by (intros p h m Hp; unfold hrow; cbn; by rewrite Ha).
  assert (∀ p h m, at_ rowss' p = Some (h, m) → sr_world s !! h = Some m) as Hw.
  { intros p h m Hp. apply (lw_world _ _ _ (rv_lw _ _ _ _ _ _ _ _ _ H)). eauto. }
  split; [|done].
  assert (∀ p x y, at_ rowss' p = Some x → at_ rowss p = Some y → x.1 = y.1) as Heq.
  { intros p [h m] [g m0] Hp Hp0. cbn. pose proof (lw_place (rv_lw _ _ _ _ _ _ _ _ _ H0) _ _ (Hrow0 _ _ _ Hp0)) as L.
    cbn in L. rewrite <- T2 in L. apply (lw_locs _ _ _ (rv_lw _ _ _ _ _ _ _ _ _ H)) in L as (q & x & Eq & Hq & Eid). apply loc_of_inj in Eq as ->.
    rewrite (Hrow' _ _ _ Hp) in Hq. injection Hq as <-. cbn in Eid.
    assert (sr_world s0 !! g = Some m0) as Hg by (apply (lw_world _ _ _ (rv_lw _ _ _ _ _ _ _ _ _ H0)); eauto).
    destruct (alike_at _ _ _ _ Hal Hg) as (m' & Hg' & _).
    apply (alive_same (r := r)); [eapply (world_alive U H); eauto|eapply (world_alive U H); eauto|done]. }
  assert (length <$> rowss' = length <$> rowss) as L by congruence.
  apply list_eq. intros j. rewrite !list_lookup_fmap. pose proof (f_equal (.!! j) L) as Lj. rewrite !list_lookup_fmap in Lj.
  destruct (rowss' !! j) as [l'|] eqn:Hj', (rowss !! j) as [l|] eqn:Hj; try done. cbn in *. injection Lj as Lj. f_equal.
  apply list_eq. intros i. rewrite !list_lookup_fmap.
  destruct (l' !! i) as [x|] eqn:Hi', (l !! i) as [y|] eqn:Hi; try done; cbn.
  - f_equal. apply (Heq (j, i)); unfold at_; cbn; by rewrite ?Hj', ?Hj.
  - apply lookup_lt_Some in Hi'. apply lookup_ge_None in Hi. lia.
  - apply lookup_lt_Some in Hi. apply lookup_ge_None in Hi'. lia.
Qed.

(** * The loops *)
Lemma sp_loop_app rq cb hs1 hs2 : ∀ log s log1 s1 o s2,
  sp_loop U rq cb hs1 log s (Ok log1) s1 → sp_loop U rq cb hs2 log1 s1 o s2 → sp_loop U rq cb (hs1 ++ hs2) log s o s2.
Proof.
  induction hs1 as [|h hs1 IH]; intros log s log1 s1 o s2 H1 H2; [by destruct H1 as [[= ->] ->]|].
  destruct H1 as (m & o1 & s' & Hm & Hma & Hcb & H1). exists m, o1, s'. split_and!; try done. destruct o1 as [?|e|]; [|by destruct H1|done].
  by eapply IH.
Qed.
Lemma sp_loop_throw rq cb hs1 hs2 e : ∀ log s s1,
  sp_loop U rq cb hs1 log s (Throw e) s1 → sp_loop U rq cb (hs1 ++ hs2) log s (Throw e) s1.
Proof.
  induction hs1 as [|h hs1 IH]; intros log s s1 H1; [by destruct H1|].
  destruct H1 as (m & o1 & s' & Hm & Hma & Hcb & H1). exists m, o1, s'. split_and!; try done. destruct o1 as [?|e'|]; [|done|done].
  by eapply IH.
Qed.

Section loop.
Context (rq : list vreq) (Hne : rq ≠ []) (Hent : VReq (u_ent U) true ∉ rq).
Context (cb : option nat → vlog → list cell → M registry unit) (scb : vlog → list cell → sreg → outcome unit → sreg → Prop).
Context (N1 : nat) (n0 : nat) (r0 : registry) (s0 : sreg) (iss0 : list handle) (hp0 : store) (H0 : ri U (2 * n0) r0 s0 iss0 hp0).
Context (Hcb : ∀ n r s (a : nat) h m log, reached U n r s → same_struct r0 r → alike s0 s → below_wrap (2 * (n + N1)) →
  sr_world s !! h = Some m → matches U rq (h, m) →
  ∃ n' r' o s', cb (Some a) log (args_of U rq (h, m)) r = (r', o) ∧ o ≠ UB ∧ scb log (args_of U rq (h, m)) s o s' ∧
    reached U n' r' s' ∧ n' ≤ n + N1 ∧ same_struct r0 r' ∧ alike s0 s').

Definition loop_ok (m : vlog → M registry vlog) (hs : list handle) : Prop := ∀ n r s log,
  reached U n r s → same_struct r0 r → alike s0 s → below_wrap (2 * (n + length hs * N1)) →
  ∃ n' r' o s', m log r = (r', o) ∧ o ≠ UB ∧ sp_loop U rq scb hs log s o s' ∧
    reached U n' r' s' ∧ n' ≤ n + length hs * N1 ∧ same_struct r0 r' ∧ alike s0 s'.

Lemma loop_nil m : (∀ log r, m log r = (r, Ok log)) → loop_ok m [].
Proof. intros Hm n r s log Hr Hs Ha Hbw. exists n, r, (Ok log), s. rewrite Hm. split_and!; try done. lia. Qed.
Lemma loop_app m1 m2 hs1 hs2 : loop_ok m1 hs1 → loop_ok m2 hs2 → loop_ok (λ log, bind (m1 log) m2) (hs1 ++ hs2).
Proof.
  intros H1 H2 n r s log Hr Hs Ha Hbw. rewrite app_length in *.
  destruct (H1 n r s log Hr Hs Ha) as (n1 & r1 & o1 & s1 & E1 & U1 & L1 & R1 & B1 & S1 & A1); [unfold below_wrap in *; lia|].
  destruct o1 as [log1|e|]; [| |done].
  - destruct (H2 n1 r1 s1 log1 R1 S1 A1) as (n2 & r2 & o2 & s2 & E2 & U2 & L2 & R2 & B2 & S2 & A2); [unfold below_wrap in *; lia|].
    exists n2, r2, o2, s2. rewrite (bind_ok _ _ _ _ _ E1). split_and!; try done; [by eapply sp_loop_app|lia].
  - exists n1, r1, (Throw e), s1. rewrite (bind_throw _ _ _ _ _ E1). split_and!; try done; [by apply sp_loop_throw|lia].
Qed.

Lemma rows_loop (a j : nat) cs rowss rows ar0 : hp0 !! a = Some (cs, rowss) → rg_heap r0 !! a = Some ar0 → rowss !! j = Some rows → req_in U rq cs →
  ∀ rest done_, rows = done_ ++ rest →
  loop_ok (ev_rows U (S (length rest)) rq cb (Some a) j (ptrs (bl := ar_blocks ar0) rq (length done_)) (ptrs (bl := ar_blocks ar0) rq (length rows))) rest.*1.
Proof.
  intros Ha Har Hj Hin. induction rest as [|[h0 m0] rest IH]; intros done_ E n r s log Hr Hs Hal Hbw.
  - rewrite app_nil_r in E. subst done_. apply loop_nil; [|done..]. clear. intros log r. cbn [ev_rows]. unfold it_eqb. by rewrite bool_decide_true.
  - cbn [length fmap list_fmap] in Hbw |- *. rewrite Nat.mul_succ_l in Hbw.
    destruct (cur_arch _ _ _ _ _ _ _ _ _ _ _ _ H0 Hr ltac:(unfold below_wrap in *; lia) Hs Hal Ha Har) as (b & ar & rowss' & Har' & Hrep & Hful & Eb & Ehd & Hw).
    pose proof (f_equal (.!! j) Ehd) as Ej. rewrite !list_lookup_fmap, Hj in Ej. destruct (rowss' !! j) as [rows'|] eqn:Hj'; [|done]. cbn in Ej. injection Ej as Ej.
    pose proof (f_equal (.!! length done_) Ej) as Ei. rewrite !list_lookup_fmap in Ei.
    assert (rows !! length done_ = Some (h0, m0)) as Hi by (subst rows; by apply list_lookup_middle). rewrite Hi in Ei.
    destruct (rows' !! length done_) as [[h m]|] eqn:Hi'; [|done]. cbn in Ei. injection Ei as ->.
    assert (at_ rowss' (j, length done_) = Some (h0, m)) as Hat by (unfold at_; cbn; by rewrite Hj').
    pose proof (Hw _ _ _ Hat) as Hm. pose proof (Hful _ _ Hat) as Hfr.
    destruct (ar_chunk U b ar cs _ _ _ Hrep Hj') as (k & Hk & Hck).
    assert (∀ q, q ∈ rq → vr_cid q ∈ u_ent U :: cs) as Hrq by done.
    assert (length done_ ≠ length rows) as Hlt by (subst rows; rewrite app_length; cbn; lia).
    pose proof (it_deref_ok U rq Hrq b k rows' (length done_) _ Hck Hi' Hfr) as Ed. rewrite Eb in Ed.
    assert (on_chunk j (it_deref (ptrs (bl := ar_blocks ar0) rq (length done_))) ar = (ar, Ok (args_of U rq (h0, m)))) as E2.
    { rewrite (on_chunk_run _ _ _ _ _ _ Hk Ed), args_eq. f_equal. unfold ar_with_chunks. rewrite list_insert_id by done. by destruct ar. }
    assert (matches U rq (h0, m)) as Hma.
    { apply Forall_forall. intros q Hq. unfold arg_of. cbn [fst snd]. case_decide as Hd; [eauto|]. apply Hrq in Hq. apply elem_of_cons in Hq as [?|Hq]; [done|].
      apply (full_elem _ _ _ _ Hfr) in Hq as [v ->]. cbn. eauto. }
    destruct (Hcb n r s a h0 m log Hr Hs Hal) as (n1 & r1 & o1 & s1 & E1 & U1 & C1 & R1 & B1 & S1 & A1); [unfold below_wrap in *; lia|done..|].
    remember (S (length rest)) as fuel eqn:Hfuel. cbn [ev_rows]. rewrite Eb in *. pose proof (ap_bl _ _ _ _ _ Hrep) as Hbl. rewrite Eb in Hbl.
    rewrite (it_eqb_ok U HU Hbl rq Hrq _ _ Hne), bool_decide_false by done.
    rewrite (bind_ok _ _ _ _ _ (on_arch_same _ _ _ _ _ Har' E2)).
    destruct o1 as [[]|e|]; [| |done].
    + rewrite (bind_ok _ _ _ _ _ E1). rewrite (it_incr_ok U Hbl rq Hrq).
      destruct (IH (done_ ++ [(h0, m0)]) ltac:(by rewrite <- app_assoc) n1 r1 s1 (log ++ [args_of U rq (h0, m)]) R1 S1 A1) as (n2 & r2 & o2 & s2 & F1 & F2 & F3 & F4 & F5 & F6 & F7).
      { rewrite fmap_length. rewrite fmap_length in Hbw. unfold below_wrap in *; lia. }
      rewrite app_length, Nat.add_1_r in F1. subst fuel. exists n2, r2, o2, s2. split_and!; try done; [|lia].
      exists m, (Ok tt), s1. done.
    + rewrite (bind_throw _ _ _ _ _ E1). exists n1, r1, (Throw e), s1. split_and!; try done; [|lia]. exists m, (Throw e), s1. done.
Qed.

Lemma loop_ext (m m' : vlog → M registry vlog) hs : (∀ n log r s, reached U n r s → same_struct r0 r → alike s0 s → below_wrap (2 * n) → m log r = m' log r) →
  loop_ok m' hs → loop_ok m hs.
Proof.
  intros He H n r s log Hr Hs Ha Hbw. rewrite (He n) with (s := s); [by apply H|done..|]. unfold below_wrap in *; lia.
Qed.

Lemma chunks_loop (a : nat) cs rowss ar0 : hp0 !! a = Some (cs, rowss) → rg_heap r0 !! a = Some ar0 → req_in U rq cs →
  ∀ rest done_, rowss = done_ ++ rest →
  loop_ok (ev_chunks U (Some a) (ar_blocks ar0) rq cb (seq (length done_) (length rest))) (concat rest).*1.
Proof.
  intros Ha Har Hin. induction rest as [|rows rest IH]; intros done_ E; [by apply loop_nil|].
  cbn [concat length seq]. rewrite fmap_app.
  assert (rowss !! length done_ = Some rows) as Hj by (subst rowss; by apply list_lookup_middle).
  eapply loop_ext; [|apply loop_app; [apply (rows_loop a (length done_) cs rowss rows ar0 Ha Har Hj Hin rows []); done|apply (IH (done_ ++ [rows])); by rewrite <- app_assoc]].
  intros n log r s Hr Hs Hal Hbw. cbn [ev_chunks].
  destruct (cur_arch _ _ _ _ _ _ _ _ _ _ _ _ H0 Hr Hbw Hs Hal Ha Har) as (b & ar & rowss' & Har' & Hrep & Hful & Eb & Ehd & Hw).
  pose proof (f_equal (.!! length done_) Ehd) as Ej. rewrite !list_lookup_fmap, Hj in Ej. destruct (rowss' !! length done_) as [rows'|] eqn:Hj'; [|done]. cbn in Ej. injection Ej as Ej.
  destruct (ar_chunk U b ar cs _ _ _ Hrep Hj') as (k & Hk & Hck). pose proof (ap_bl _ _ _ _ _ Hrep) as Hbl. rewrite Eb in Hbl.
  assert (ck_size k = length rows) as Esz. { rewrite (cr_size _ _ _ _ _ _ _ Hck). apply (f_equal length) in Ej. by rewrite !fmap_length in Ej. }
  assert (ev_bounds (ar_blocks ar0) rq k = (k, Ok (length rows, ptrs (bl := ar_blocks ar0) rq 0, ptrs (bl := ar_blocks ar0) rq (length rows)))) as Ev.
  { unfold ev_bounds. rewrite (bind_ok _ _ k k k) by done. rewrite (bind_ok _ _ _ _ _ (it_new_ok U Hbl rq Hin 0 k)).
    rewrite Esz. rewrite (bind_ok _ _ _ _ _ (it_new_ok U Hbl rq Hin (length rows) k)). done. }
  assert (on_chunk (length done_) (ev_bounds (ar_blocks ar0) rq) ar = (ar, Ok (length rows, ptrs (bl := ar_blocks ar0) rq 0, ptrs (bl := ar_blocks ar0) rq (length rows)))) as E2.
  { rewrite (on_chunk_run _ _ _ _ _ _ Hk Ev). f_equal. unfold ar_with_chunks. rewrite list_insert_id by done. by destruct ar. }
  rewrite (bind_ok _ _ _ _ _ (on_arch_same _ _ _ _ _ Har' E2)). rewrite app_length, Nat.add_1_r. done.
Qed.

Lemma archs_loop l : (∀ e, e ∈ l → ∃ a, e.2 = Some a ∧ is_Some (hp0 !! a)) → loop_ok (ev_archs U rq cb l) (l ≫= arows U rq hp0).*1.
Proof.
  induction l as [|e l IH]; intros Hl; [by apply loop_nil|]. destruct (Hl e ltac:(by left)) as (a & He & [[cs rowss] Ha]).
  pose proof H0 as [_ Hi0 _]. destruct (st_arch U _ _ _ _ _ (rv_st _ _ _ _ _ _ _ _ _ Hi0) Ha) as (ar0 & Har0 & Hrep0). cbn [fst snd] in Hrep0.
  assert (arows U rq hp0 e = if decide (req_in U rq cs) then concat rowss else []) as Ee.
  { unfold arows. rewrite He. cbn. by rewrite Ha. }
  cbn [mbind list_bind]. rewrite Ee, fmap_app. change (list_bind _ _ (arows U rq hp0) l) with (l ≫= arows U rq hp0).
  specialize (IH (λ e' He', Hl e' ltac:(by right))).
  assert (loop_ok (if decide (req_in U rq cs) then ev_chunks U (Some a) (ar_blocks ar0) rq cb (seq 0 (length rowss)) else ret)
    (if decide (req_in U rq cs) then concat rowss else []).*1) as H1.
  { destruct (decide _); [|by apply loop_nil]. by apply (chunks_loop a cs rowss ar0 Ha Har0 r rowss []). }
  eapply loop_ext; [|apply (loop_app _ _ _ _ H1 IH)].
  intros n log r s Hr Hs Hal Hbw. cbn [ev_archs]. rewrite He.
  destruct (cur_arch _ _ _ _ _ _ _ _ _ _ _ _ H0 Hr Hbw Hs Hal Ha Har0) as (b & ar & rowss' & Har' & Hrep & Hful & Eb & Ehd & Hw).
  rewrite (bind_ok _ _ _ _ _ (rg_arch_run _ _ _ Har')). rewrite (match_ok U HU rq b ar cs rowss' Hrep), Eb, (ar_len U b ar cs rowss' Hrep).
  apply (f_equal length) in Ehd. rewrite !fmap_length in Ehd. rewrite Ehd.
  destruct (decide (req_in U rq cs)); [by rewrite bool_decide_true|by rewrite bool_decide_false].
Qed.
End loop.

(** * Programs *)
Lemma names_len rq w hs : names U rq w hs → length hs ≤ size w.
Proof.
  intros [Hnd Hin]. rewrite <- size_dom, <- (size_list_to_set (C := gset handle)) by done. apply subseteq_size. intros h Hh.
  apply elem_of_list_to_set, Hin in Hh as (m & Hm & _). apply elem_of_dom. eauto.
Qed.

Lemma prog_ok s0 p : ∀ ws N n r s, calm U s0 p → calls (size (sr_world s0)) p N → reached U n r s → alike s0 s → sr_failed s0 = false →
  below_wrap (2 * (n + N)) →
  ∃ n' r' o s', run_rprog U ws p r = (r', o) ∧ o ≠ UB ∧ sp_prog U p s o s' ∧ reached U n' r' s' ∧ n' ≤ n + N ∧ same_struct r r' ∧ alike s0 s'.
Proof.
  induction p as [|e|op k IH|rq g IHg k IHk]; intros ws N n r s Hc Hn Hr Hal Hf Hbw.
  - exists n, r, (Ok tt), s. split_and!; try done. lia.
  - exists n, r, (Throw e), s. split_and!; try done. lia.
  - destruct Hc as [Hop Hk]. destruct Hn as (N' & -> & Hn). pose proof Hal as (_ & _ & _ & Hf' & _).
    destruct (calm_step n r s op Hr ltac:(unfold below_wrap in *; lia) ltac:(congruence) (alike_calm _ _ _ Hal Hop)) as (r1 & o1 & s1 & E1 & U1 & R1 & Hr1 & S1 & A1).
    destruct (IH o1 ws N' (S n) r1 s1 (Hk _ _ _ Hal R1) (Hn o1) Hr1 (alike_trans _ _ _ Hal A1) Hf) as (n2 & r2 & o2 & s2 & E2 & U2 & P2 & Hr2 & B2 & S2 & A2); [unfold below_wrap in *; lia|].
    exists n2, r2, o2, s2. split_and!; try done; [|by exists o1, s1|lia|by eapply ss_trans].
    cbn [run_rprog]. rewrite (bind_ok _ _ r r1 o1); [done|]. unfold rp_call. rewrite E1, (iters_same _ _ _ S1). by destruct o1.
  - destruct Hc as (Hne & Hent & Hg & Hk). destruct Hn as (N1 & N2 & -> & Hn1 & Hn2).
    destruct (reached_ri U HU _ _ _ Hr) as (iss & hp & Hri); [unfold below_wrap in *; lia|]. pose proof Hri as [_ Hi Hnn].
    pose proof Hal as (_ & _ & _ & Hf' & _). specialize (Hnn ltac:(congruence)).
    set (hs := (ht_iter (rg_table r) ≫= arows U rq hp).*1).
    assert (names U rq (sr_world s) hs) as Hnames.
    { pose proof (enum_perm U rq _ _ (rows_perm U _ _ _ _ _ _ _ _ rq Hi)) as [Hnd Hes]. split; [done|]. intros h. unfold hs. rewrite elem_of_list_fmap. split.
      - intros ([h' m] & -> & Hin). apply Hes in Hin. eauto.
      - intros (m & Hm). apply Hes in Hm. exists (h, m). done. }
    assert (length hs ≤ size (sr_world s0)) as Hlen.
    { etransitivity; [by eapply names_len|]. by rewrite <- !size_dom, (alike_dom _ _ Hal). }
    assert (length hs * N1 ≤ size (sr_world s0) * N1) as Hmul by (by apply Nat.mul_le_mono_r).
    destruct (archs_loop rq Hne (λ p log xs, run_rprog U (p :: ws) (g log xs)) (λ log xs, sp_prog U (g log xs)) N1 n r s iss hp Hri) with
      (l := ht_iter (rg_table r)) (n := n) (r := r) (s := s) (log := [] : vlog) as (n1 & r1 & o1 & s1 & E1 & U1 & P1 & Hr1 & B1 & S1 & A1); try done.
    { intros n' r' s' a h m log Hr' Hs' Hal' Hbw' Hm Hma. pose proof (alike_trans _ _ _ Hal Hal') as Hal2.
      destruct (IHg log (args_of U rq (h, m)) (Some a :: ws) N1 n' r' s' (Hg _ _ _ log Hal2 Hm Hma) (Hn1 _ _) Hr' Hal2 Hf Hbw') as (n2 & r2 & o2 & s2 & E2 & U2 & P2 & Hr2 & B2 & S2 & A2).
      exists n2, r2, o2, s2. split_and!; try done; [by eapply ss_trans|]. eapply alike_trans; [by apply alike_sym|done]. }
    { intros e He. destruct (entries_ok U _ _ _ (rv_st _ _ _ _ _ _ _ _ _ Hi)) as [_ Hen]. apply Hen; [done|]. intros Hnull.
      apply (Hnn e.1). rewrite <- Hnull. apply elem_of_map_to_list. rewrite <- (iter_perm bs_hash _ (si_twf _ _ _ _ (rv_st _ _ _ _ _ _ _ _ _ Hi))). by destruct e. }
    { fold hs. unfold below_wrap in *. lia. }
    fold hs in P1, B1.
    destruct (IHk o1 ws N2 n1 r1 s1 (Hk o1) (Hn2 o1) Hr1 (alike_trans _ _ _ Hal A1) Hf) as (n2 & r2 & o2 & s2 & E2 & U2 & P2 & Hr2 & B2 & S2 & A2); [unfold below_wrap in *; lia|].
    exists n2, r2, o2, s2. split_and!; try done; [|by exists hs, o1, s1|lia|by eapply ss_trans].
    cbn [run_rprog]. unfold ev_each. rewrite (bind_ok _ _ r r r) by done. rewrite E1. by destruct o1.
Qed.
End alike.
