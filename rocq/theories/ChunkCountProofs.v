(** Where create and destroy put rows and take them from. *)
From Verif Require Import Base Bits Layout PropLayout HandlePool HandleSpec HandlePoolProofs SparseMap SparseMapProofs
  HashTable HashTableProofs HashTableMap Bitset BitsetProofs ComponentSet ComponentSetProofs
  Chunk ChunkProofs Archetype ArchetypeProofs Registry RegistryStore RegistryProofs View ViewProofs RegSpec RegSpecProofs RegTrap ChunkCount.
Ltac Zify.zify_post_hook ::= Z.div_mod_to_equations.

(** A row put behind the others: into the last chunk, or into a new one when that is full. *)
Definition put_row (cap : nat) (ini : list (list row)) (rows : list row) (x : row) : list (list row) :=
  if decide (length rows = cap) then ini ++ [rows; [x]] else ini ++ [rows ++ [x]].
Definition put_at (cap : nat) (ini : list (list row)) (rows : list row) : nat * nat :=
  if decide (length rows = cap) then (S (length ini), 0) else (length ini, length rows).

Lemma put_inserted cap ini rows x : inserted (ini ++ [rows]) (put_at cap ini rows) x (put_row cap ini rows x).
Proof.
  unfold put_at, put_row. case_decide as Hc.
  - split.
    + unfold at_. cbn [fst snd]. rewrite lookup_ge_None_2; [done|]. rewrite app_length. cbn. lia.
    + intros [c i]. unfold at_. cbn [fst snd]. change (ini ++ [rows; [x]]) with (ini ++ [rows] ++ [[x]]). rewrite (assoc_L (++)).
      destruct (decide (c < S (length ini))) as [Hl|Hl].
      * rewrite lookup_app_l by (rewrite app_length; cbn; lia). rewrite decide_False; [done|]. intros [= -> ->]. lia.
      * rewrite lookup_app_r by (rewrite app_length; cbn; lia). rewrite (lookup_ge_None_2 (ini ++ [rows])) by (rewrite app_length; cbn; lia).
        rewrite app_length. cbn [length]. destruct (decide (c = S (length ini))) as [->|Hn].
        -- replace (S (length ini) - (length ini + 1)) with 0 by lia. cbn. destruct i as [|i].
           ++ by rewrite decide_True.
           ++ rewrite decide_False by congruence. done.
        -- rewrite decide_False by congruence. rewrite lookup_ge_None_2 by (cbn; lia). done.
  - split.
    + unfold at_. cbn [fst snd]. rewrite list_lookup_middle by done. by apply lookup_ge_None_2.
    + intros q. assert ((ini ++ [rows]) !! length ini = Some rows) as Hl by (by rewrite list_lookup_middle).
      rewrite <- (at_alter_snoc _ _ _ x q Hl). f_equal. rewrite (alter_insert _ _ _ _ Hl). rewrite insert_app_r_alt by lia.
      by rewrite Nat.sub_diag.
Qed.
Lemma put_nohole cap ini rows x : ¬ hole (put_row cap ini rows x).
Proof.
  unfold hole, put_row. case_decide.
  - intros [E _]. change (ini ++ [rows; [x]]) with (ini ++ [rows] ++ [[x]]) in E. rewrite (assoc_L (++)), last_snoc in E. done.
  - intros [E _]. rewrite last_snoc in E. by destruct rows.
Qed.

Section proofs.
Context (U : universe).
Hypothesis HU : u_wf U.

Lemma emplace_rows s a cs ini rows h args : ar_repr U s a cs (ini ++ [rows]) → args.*1 ≡ₚ cs →
  ∃ a', ar_emplace U h args a = (a', Ok (put_at (ar_max a) ini rows)) ∧ same_arch a a' ∧
    ar_repr U s a' cs (put_row (ar_max a) ini rows (h, list_to_map args)).
Proof.
  intros Hr Hperm.
  assert (∃ a1 ini1 rows1, ar_ensure_free a = (a1, Ok (length ini1)) ∧ ar_repr U s a1 cs (ini1 ++ [rows1]) ∧ same_arch a a1 ∧
    length rows1 < ar_max a ∧ put_at (ar_max a) ini rows = (length ini1, length rows1) ∧
    (∀ x, put_row (ar_max a) ini rows x = ini1 ++ [rows1 ++ [x]])) as (a1 & ini1 & rows1 & Hrun & Hr1 & Hs1 & Hlt & Ep & Er).
  { destruct (ar_last _ _ _ _ _ Hr) as (rows0 & k & Hrows & Hl & Hk & Hlk & Hrk). rewrite last_snoc in Hl. injection Hl as <-.
    unfold ar_ensure_free. rewrite Hlk. rewrite (full_iff _ _ _ _ Hrk). pose proof (ar_len _ _ _ _ _ Hr) as Hlen. rewrite app_length in Hlen. cbn in Hlen.
    unfold put_at, put_row. case_bool_decide as Hfull.
    - exists (ar_with_chunks a (ar_chunks a ++ [ck_new (ar_max a)])), (ini ++ [rows]), [].
      split; [rewrite app_length; cbn; repeat f_equal; lia|]. split.
      { destruct Hr. split; try done; cbn [ar_with_chunks ar_max ar_blocks ar_comps ar_chunks ar_lost].
        - by destruct ini.
        - apply Forall2_app; [done|]. constructor; [apply ck_new_repr|constructor]. }
      split; [done|]. split; [apply Hr|]. rewrite decide_True by done. split; [rewrite app_length; cbn; f_equal; lia|].
      intros x. rewrite decide_True by done. by rewrite <- (assoc_L (++)).
    - exists a, ini, rows. rewrite decide_False by done. split; [repeat f_equal; lia|]. split; [done|]. split; [done|].
      split; [pose proof (cr_le _ _ _ _ _ _ _ Hrk); lia|]. split; [done|]. intros x. by rewrite decide_False. }
  unfold ar_emplace, bind at 1. rewrite Hrun. unfold bind at 1, get.
  assert ((ini1 ++ [rows1]) !! length ini1 = Some rows1) as Hrows by (by rewrite list_lookup_middle).
  destruct (ar_chunk _ _ _ _ _ _ _ Hr1 Hrows) as (k & Hk & Hrk).
  unfold bind at 1, on_chunk at 1. rewrite Hk.
  assert (ar_with_chunks a1 (<[length ini1 := k]> (ar_chunks a1)) = a1) as ->.
  { unfold ar_with_chunks. rewrite list_insert_id by done. by destruct a1. }
  unfold bind at 1, on_chunk at 1. rewrite Hk.
  destruct (emplace_back_repr U (ap_bl _ _ _ _ _ Hr1) s k rows1 h args) as (k' & Hem & Hrk'); [done| |done|].
  { destruct Hs1 as (-> & _). lia. }
  rewrite Hem. unfold ret. rewrite (cr_size _ _ _ _ _ _ _ Hrk), Ep. pose proof (ar_len _ _ _ _ _ Hr1) as Hlen. rewrite app_length in Hlen. cbn in Hlen.
  eexists. split; [try rewrite Hlen; repeat f_equal; try done; lia|]. split; [done|]. rewrite Er.
  replace (ini1 ++ [rows1 ++ [(h, list_to_map args)]]) with (<[length ini1 := rows1 ++ [(h, list_to_map args)]]> (ini1 ++ [rows1])).
  - apply (ar_put_chunk U s a1 cs (ini1 ++ [rows1])); [rewrite app_length; cbn; lia|done|done].
  - rewrite insert_app_r_alt by lia. by rewrite Nat.sub_diag.
Qed.

(** The last row of a chunk that is not the last chunk. *)
Lemma erase_tail s a cs pre rows x mid lst : ar_repr U s a cs (pre ++ (rows ++ [x]) :: mid ++ [lst]) → full cs x → lst ≠ [] →
  ∃ a', ar_swap_erase U (length pre) (length rows) a = (a', Ok None) ∧ same_arch a a' ∧ ar_repr U s a' cs (pre ++ rows :: mid ++ [lst]).
Proof.
  intros Hr Hf Hne. set (rowss := pre ++ (rows ++ [x]) :: mid ++ [lst]) in *.
  assert (rowss !! length pre = Some (rows ++ [x])) as Hc by (unfold rowss; by rewrite list_lookup_middle).
  destruct (ar_pop_spec _ _ _ _ _ _ _ _ Hr Hc Hf) as (a' & Hrun & Hs & Hr').
  assert (alter (λ _, rows) (length pre) rowss = pre ++ rows :: mid ++ [lst]) as Ea.
  { rewrite (alter_insert _ _ _ _ Hc). unfold rowss. rewrite insert_app_r_alt by lia. by rewrite Nat.sub_diag. }
  rewrite Ea in Hr'. exists a'. split; [|done].
  destruct (ar_chunk _ _ _ _ _ _ _ Hr Hc) as (k & Hk & Hrk).
  unfold ar_swap_erase, bind at 1, get. unfold bind at 1.
  assert (ck_swap_erase U (length pre) (length (ar_chunks a) - 1) (length rows) a = (a', Ok None)) as ->.
  { unfold ck_swap_erase, bind at 1, get. unfold bind at 1.
    change (λ s0 : chunk, (s0, Ok s0)) with (get (S := chunk)).
    rewrite (on_chunk_get _ _ _ Hk). rewrite (cr_size _ _ _ _ _ _ _ Hrk). rewrite app_length. cbn [length].
    rewrite decide_False by lia. rewrite decide_True by lia. unfold bind at 1. rewrite Hrun. done. }
  destruct (ar_last _ _ _ _ _ Hr') as (lr & lk & Hlr & Hl & Hlk & Hkl & Hlrk).
  replace (pre ++ rows :: mid ++ [lst]) with ((pre ++ rows :: mid) ++ [lst]) in Hl by (by rewrite <- (assoc_L (++))).
  rewrite last_snoc in Hl. injection Hl as <-.
  assert (length (ar_chunks a) - 1 = length (pre ++ rows :: mid ++ [lst]) - 1) as ->.
  { rewrite (ar_len _ _ _ _ _ Hr). unfold rowss. rewrite !app_length. cbn [length]. by rewrite !app_length. }
  unfold bind at 1. change (λ s0 : chunk, (s0, Ok s0)) with (get (S := chunk)). rewrite (on_chunk_get _ _ _ Hlk). rewrite (empty_iff _ _ _ _ Hlrk).
  rewrite bool_decide_false by done. done.
Qed.

(** A component set has one archetype. *)
Lemma arch_unique s r hp (a b : nat) x y : st_inv U s r hp → hp !! a = Some x → hp !! b = Some y → same_set x.1 y.1 → a = b.
Proof.
  intros Hst Ha Hb Hs. destruct (st_arch U _ _ _ _ _ Hst Ha) as (ar & Har & Hra). destruct (st_arch U _ _ _ _ _ Hst Hb) as (br & Hbr & Hrb).
  pose proof (si_t2 _ _ _ _ Hst _ _ Har) as T1. pose proof (si_t2 _ _ _ _ Hst _ _ Hbr) as T2.
  assert (ms_ids (ar_comps ar) = ms_ids (ar_comps br)) as E.
  { apply ms_eq_iff; [apply Hra|apply Hrb|]. intros c. rewrite (ap_cs _ _ _ _ _ Hra), (ap_cs _ _ _ _ _ Hrb). apply Hs. }
  rewrite E, T2 in T1. by injection T1.
Qed.

(** create, when the archetype exists. *)
Lemma create_there s n r iss dd hp w args (a : nat) ini rows ar : rinv U s n r iss dd [] hp w → below_wrap (S n) →
  NoDup args.*1 → u_ent U ∉ args.*1 → hp !! a = Some (args.*1, ini ++ [rows]) → rg_heap r !! a = Some ar →
  ∃ r' h hp' ar', rg_create U args r = (r', Ok h) ∧ h ∉ iss ∧ w !! h = None ∧
    rinv U s (S n) r' (h :: iss) dd [] hp' (<[h := list_to_map args]> w) ∧ (nonull r → nonull r') ∧
    hp' !! a = Some (args.*1, put_row (ar_max ar) ini rows (h, list_to_map args)) ∧ rg_heap r' !! a = Some ar' ∧ ar_max ar' = ar_max ar.
Proof.
  intros H Hbw Hnd Hent Ha Har0. unfold rg_create.
  destruct (allocate_spec U _ _ _ _ _ _ _ H Hbw) as (r1 & h & E1 & H1 & Hh & Hw & Hal & Eh & Et & El).
  rewrite (bind_ok _ _ _ _ _ E1).
  destruct (ensure_list_spec U HU s r1 hp args.*1 (rv_st _ _ _ _ _ _ _ _ _ H1) Hnd Hent) as (r2 & o2 & E2 & Ep2 & El2 & Ho2).
  destruct Ho2 as [(b & hp1 & cs1 & rowss1 & -> & He & Hst & Hb & Hss & Hnn)|(-> & Hg & Hst)].
  2:{ exfalso. destruct (si_lay _ _ _ _ Hst _ _ Ha) as [x Hx]. cbn [fst] in Hx. congruence. }
  rewrite (bind_ok _ _ _ _ _ E2).
  pose proof (hpe_lookup _ _ _ _ He Ha) as Ha1.
  assert (b = a) as -> by (eapply arch_unique; [done|done|done|exact Hss]).
  rewrite Ha1 in Hb. injection Hb as <- <-.
  destruct (st_arch U _ _ _ _ _ Hst Ha1) as (ar0 & Har & Hrep). cbn [fst snd] in Hrep.
  assert (ar0 = ar) as ->.
  { unfold rg_ensure_list in E2. rewrite <- Eh in Har0. pose proof (with_search_heap U _ _ _ _ _ _ _ E2 Har0). congruence. }
  destruct (emplace_rows s ar _ ini rows h args Hrep) as (ar' & Em & Hsame & Hrep'); [done|].
  rewrite (bind_ok _ _ _ _ _ (on_arch_run _ _ _ _ _ _ Har Em)).
  pose proof (st_put U _ _ _ _ _ _ _ _ _ Hst Har Ha1 Hsame Hrep') as Hst'.
  pose proof (put_inserted (ar_max ar) ini rows (h, list_to_map args)) as Hins.
  destruct (place_spec U s (S n) r1 (h :: iss) dd [] hp w (rg_set_heap r2 (<[a := ar']> (rg_heap r2))) hp1 a args.*1 (ini ++ [rows]) (put_at (ar_max ar) ini rows) h
    (list_to_map args) (put_row (ar_max ar) ini rows (h, list_to_map args)) H1) as (r3 & E3 & H3 & Hk).
  - rewrite El. by eapply locs_room.
  - done.
  - by left.
  - intros Hd. apply Hh. by apply (hi_dead _ _ (rv_pool _ _ _ _ _ _ _ _ _ H)).
  - apply not_elem_of_nil.
  - done.
  - done.
  - done.
  - unfold full. cbn [snd]. by rewrite dom_list_to_map_L.
  - apply put_nohole.
  - done.
  - cbn. congruence.
  - cbn. congruence.
  - exact Hnn.
  - rewrite (bind_ok _ _ _ _ _ E3). eexists _, h, _, ar'. split; [done|]. split; [done|]. split; [done|]. split; [exact H3|].
    destruct Hk as [_ Hk2]. split; [intros Hnn0; apply Hk2; unfold nonull; by rewrite Et|].
    split; [apply list_lookup_insert; by eapply lookup_lt_Some|]. split; [|apply Hsame].
    unfold rg_set_location in E3. destruct (sm_assign _ _ _ _ _); [|done]. injection E3 as <-. cbn. apply list_lookup_insert. by eapply lookup_lt_Some.
Qed.

(** destroy, for the last row of a chunk that is not the last. *)
Lemma destroy_there s n r iss dd hp w h m (a : nat) cs pre rows mid lst ar : rinv U s n r iss dd [] hp w → below_wrap (S n) →
  hp !! a = Some (cs, pre ++ (rows ++ [(h, m)]) :: mid ++ [lst]) → lst ≠ [] → rg_heap r !! a = Some ar →
  ∃ r' ar', rg_destroy U h r = (r', Ok tt) ∧
    rinv U s (S n) r' iss (h :: dd) [] (<[a := (cs, pre ++ rows :: mid ++ [lst])]> hp) (delete h w) ∧ (nonull r → nonull r') ∧
    rg_heap r' !! a = Some ar' ∧ ar_max ar' = ar_max ar.
Proof.
  intros H Hbw Ha Hne Har.
  set (p := (length pre, length rows)).
  assert (at_ (pre ++ (rows ++ [(h, m)]) :: mid ++ [lst]) p = Some (h, m)) as Hp.
  { unfold at_, p. cbn [fst snd]. rewrite list_lookup_middle by done. by rewrite list_lookup_middle. }
  assert (hrow hp (a, p) = Some (h, m)) as Hq by (unfold hrow; cbn [fst snd]; by rewrite Ha).
  assert (w !! h = Some m) as Hw by (apply (lw_world _ _ _ (rv_lw _ _ _ _ _ _ _ _ _ H)); by exists (a, p)).
  pose proof (lw_place (rv_lw _ _ _ _ _ _ _ _ _ H) _ _ Hq) as Hl. cbn [fst] in Hl.
  destruct (loc_in U H h m Hw) as (a0 & p0 & cs0 & rowss0 & rows0 & El & Ha0 & Hp0 & Hrows0 & Hf & Hl0).
  rewrite Hl in Hl0. injection Hl0 as Hl0. assert ((a, p) = (a0, p0)) as E0 by (apply loc_of_inj; unfold loc_of; cbn; congruence). injection E0 as <- <-.
  rewrite Ha in Ha0. injection Ha0 as <- <-.
  unfold rg_destroy. rewrite (bind_ok _ _ _ _ _ El). unfold loc_of. cbn [lc_arch lc_chunk lc_row fst snd].
  destruct (st_arch U _ _ _ _ _ (rv_st _ _ _ _ _ _ _ _ _ H) Ha) as (ar0 & Har' & Hrep). cbn [fst snd] in Hrep. rewrite Har in Har'. injection Har' as <-.
  destruct (erase_tail s ar cs pre rows (h, m) mid lst Hrep Hf Hne) as (ar' & Em & Hsame & Hrep').
  rewrite (bind_ok _ _ _ _ _ (on_arch_run _ _ _ _ _ _ Har Em)).
  pose proof (st_put U _ _ _ _ _ _ _ _ _ (rv_st _ _ _ _ _ _ _ _ _ H) Har Ha Hsame Hrep') as Hst'.
  assert (erased (pre ++ (rows ++ [(h, m)]) :: mid ++ [lst]) p (pre ++ rows :: mid ++ [lst]) None) as Her.
  { intros q. assert ((pre ++ (rows ++ [(h, m)]) :: mid ++ [lst]) !! length pre = Some (rows ++ [(h, m)])) as Hc by (by rewrite list_lookup_middle).
    pose proof (at_alter_pop _ _ _ _ q Hc) as Hat. fold p in Hat. rewrite <- Hat. f_equal.
    rewrite (alter_insert _ _ _ _ Hc). rewrite insert_app_r_alt by lia. by rewrite Nat.sub_diag. }
  destruct (lw_erased _ _ _ _ _ _ _ _ _ _ _ Ha Hp Her (rv_lw _ _ _ _ _ _ _ _ _ H)) as [Hlw _].
  set (r1 := rg_set_heap r (<[a := ar']> (rg_heap r))) in *.
  destruct (remove_loc_spec r1 (h_id h) (loc_of (a, p))) as (l1 & E1 & Hwf1 & Habs1); [apply H|done|].
  rewrite (bind_ok _ _ _ _ _ E1). unfold bind at 1, ret at 1.
  eexists _, ar'. split; [done|]. split; [|split; [done|split; [|apply Hsame]]].
  - split; cbn [rg_set_pool rg_set_locs rg_locs rg_pool].
    + by apply (st_frame U _ _ _ _ _ _ Hst').
    + eapply full_put; [apply H|done|]. eapply erased_full; [|done]. by eapply (rv_full _ _ _ _ _ _ _ _ _ H _ _ Ha).
    + done.
    + rewrite Habs1. done.
    + apply hinv_recycle; [apply H|done|]. by apply (rv_live _ _ _ _ _ _ _ _ _ H); eauto.
    + intros g Hg. apply lookup_delete_is_Some in Hg as [Hng Hg].
      destruct (rv_live _ _ _ _ _ _ _ _ _ H g Hg) as (? & ? & ?). split; [done|]. split; [|done]. set_solver.
  - cbn. apply list_lookup_insert. by eapply lookup_lt_Some.
Qed.

(** * Programs with few entities *)
Lemma narrow_reach C K n r s : narrow U C K n r s → reach U n [r] [s].
Proof.
  induction 1 as [|n r s op r' o s' Hr IH Hp Hrun Hn Hag Hsz Hall]; [apply (Reach0 U 1)|].
  apply (ReachS U n [r] [s] (At 0 op) [r'] o [s']); [done|by exists s| |by exists s, s'|by repeat constructor].
  cbn. unfold on_reg. cbn. by rewrite Hrun.
Qed.

Lemma ri_agrees n r s iss hp : ri U n r s iss hp → agrees U r s.
Proof. intros [_ Hr _] h m c Hw Hc. by rewrite (get_spec U HU _ _ _ _ _ _ _ _ _ _ c Hr Hw Hc). Qed.

Lemma narrow_all C K n r s h m : narrow U C K n r s → sr_world s !! h = Some m → dom m = C.
Proof. destruct 1; [done|eauto]. Qed.

Lemma narrow_create C K n r s iss hp args (a : nat) ini rows ar : narrow U C K n r s → list_to_set args.*1 = C → ri U n r s iss hp → below_wrap (S n) → sr_pending s = [] →
  NoDup args.*1 → u_ent U ∉ args.*1 → hp !! a = Some (args.*1, ini ++ [rows]) → rg_heap r !! a = Some ar → size (sr_world s) < K →
  ∃ r' s' h hp' ar', narrow U C K (S n) r' s' ∧ ri U (S n) r' s' (h :: iss) hp' ∧ sr_pending s' = [] ∧ sr_world s !! h = None ∧
    sr_world s' = <[h := list_to_map args]> (sr_world s) ∧ h ∈ sr_issued s' ∧ sr_issued s ⊆ sr_issued s' ∧
    hp' !! a = Some (args.*1, put_row (ar_max ar) ini rows (h, list_to_map args)) ∧ rg_heap r' !! a = Some ar' ∧ ar_max ar' = ar_max ar.
Proof.
  intros Hnr HC [Hiss Hri Hnn] Hbw Hpd Hnd Hent Ha Har Hsz. rewrite Hpd in Hri.
  destruct (create_there _ _ _ _ _ _ _ _ _ _ _ _ Hri Hbw Hnd Hent Ha Har) as (r' & h & hp' & ar' & Hrun & Hh & Hw & Hri' & Hnn' & Ha' & Har' & Emx).
  set (s' := with_world (issue s h) (<[h := list_to_map args]> (sr_world s))).
  assert (ri U (S n) r' s' (h :: iss) hp') as Hri2.
  { split; [cbn; set_solver|cbn; by rewrite Hpd|]. intros Hf. by apply Hnn', Hnn. }
  exists r', s', h, hp', ar'. split; [|split; [done|]].
  - eapply (NarrowS U C K n r s (OCreate args) r' (Ok (RHandle h))); [done|done| | |by eapply ri_agrees| |].
    + cbn. unfold mapM. by rewrite Hrun.
    + left. exists h. split; [|done]. intros Hx. by apply Hh, Hiss.
    + cbn. rewrite map_size_insert, Hw. lia.
    + intros g m. cbn. intros [(<- & <-)|(_ & Hg)]%lookup_insert_Some; [|by apply (narrow_all C K n r s g)]. by rewrite dom_list_to_map_L.
  - cbn. split_and!; try done; set_solver.
Qed.

Lemma narrow_destroy C K n r s iss hp h m (a : nat) cs pre rows mid lst ar : narrow U C K n r s → ri U n r s iss hp → below_wrap (S n) → sr_pending s = [] →
  h ∈ sr_issued s → hp !! a = Some (cs, pre ++ (rows ++ [(h, m)]) :: mid ++ [lst]) → lst ≠ [] → rg_heap r !! a = Some ar → size (sr_world s) ≤ K →
  ∃ r' s' ar', narrow U C K (S n) r' s' ∧ ri U (S n) r' s' iss (<[a := (cs, pre ++ rows :: mid ++ [lst])]> hp) ∧ sr_pending s' = [] ∧
    sr_world s' = delete h (sr_world s) ∧ sr_issued s' = sr_issued s ∧ rg_heap r' !! a = Some ar' ∧ ar_max ar' = ar_max ar.
Proof.
  intros Hnr [Hiss Hri Hnn] Hbw Hpd Hin Ha Hne Har Hsz. rewrite Hpd in Hri.
  destruct (destroy_there _ _ _ _ _ _ _ _ _ _ _ _ _ _ _ _ Hri Hbw Ha Hne Har) as (r' & ar' & Hrun & Hri' & Hnn' & Har' & Emx).
  assert (sr_world s !! h = Some m) as Hw.
  { apply (lw_world _ _ _ (rv_lw _ _ _ _ _ _ _ _ _ Hri)). exists (a, (length pre, length rows)). unfold hrow, at_. cbn [fst snd]. rewrite Ha. cbn [snd].
    rewrite list_lookup_middle by done. by rewrite list_lookup_middle. }
  set (s' := kill s h).
  assert (ri U (S n) r' s' iss (<[a := (cs, pre ++ rows :: mid ++ [lst])]> hp)) as Hri2.
  { split; [done|cbn; by rewrite Hpd|]. intros Hf. by apply Hnn', Hnn. }
  exists r', s', ar'. split; [|split; [done|done]].
  eapply (NarrowS U C K n r s (ODestroy h) r' (Ok RUnit)); [done|done| | |by eapply ri_agrees| |].
  - cbn. unfold mapM. by rewrite Hrun.
  - cbn. by rewrite Hw.
  - cbn. rewrite map_size_delete, Hw. lia.
  - intros g y. cbn. intros [_ Hg]%lookup_delete_Some. by apply (narrow_all C K n r s g).
Qed.
End proofs.
