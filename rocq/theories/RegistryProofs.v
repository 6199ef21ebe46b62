(** The registry invariant and the effect of every registry operation on the entities it describes. *)
From Verif Require Import Base Bits Layout PropLayout HandlePool HandleSpec HandlePoolProofs SparseMap SparseMapProofs
  HashTable HashTableProofs HashTableMap Bitset BitsetProofs ComponentSet ComponentSetProofs
  Chunk ChunkProofs Archetype ArchetypeProofs Registry RegistryStore.
Ltac Zify.zify_post_hook ::= Z.div_mod_to_equations.

Notation world := (gmap handle (gmap cid val)).

Lemma bind_ok {S A B} (m : M S A) (k : A → M S B) s s' x : m s = (s', Ok x) → bind m k s = k x s'.
Proof. intros E. unfold bind. by rewrite E. Qed.
Lemma bind_throw {S A B} (m : M S A) (k : A → M S B) s s' e : m s = (s', Throw e) → bind m k s = (s', Throw e).
Proof. intros E. unfold bind. by rewrite E. Qed.
Lemma bind_ub {S A B} (m : M S A) (k : A → M S B) s : (m s).2 = UB → (bind m k s).2 = UB.
Proof. intros E. unfold bind. by destruct (m s) as [s' []]. Qed.

Lemma bind_seq {S A B C} (m : M S A) (k : A → M S B) (j : B → M S C) s s' x :
  bind m k s = (s', Ok x) → bind m (λ y, bind (k y) j) s = j x s'.
Proof. unfold bind. destruct (m s) as [s1 [y|e|]]; [|done|done]. by intros ->. Qed.

Section registry.
Context (U : universe).
Hypothesis HU : u_wf U.

(** [rinv s n r iss dd pend hp w]: the registry [r] stores exactly the entities of [w], in the rows of [hp];
    [iss], [dd], [pend] are the handles issued, recycled and reserved-but-not-synced; [s] says that no
    object has leaked. *)
Record rinv (s : bool) (n : nat) (r : registry) (iss dd pend : list handle) (hp : store) (w : world) : Prop := {
  rv_st : st_inv U s r hp;
  rv_full : fullhp hp;
  rv_lwf : sm_wf w32 (rg_locs r);
  rv_lw : lw (hrow hp) (sm_abs (rg_locs r)) w;
  rv_pool : hinv n (Hist (rg_pool r) iss dd pend []);
  rv_live : ∀ h, is_Some (w !! h) → h ∈ iss ∧ h ∉ dd ∧ h ∉ pend }.

(** What every operation preserves besides: the last chunks of small archetypes are in use, and the table has
    no null pointer. *)
Definition keeps (r : registry) (hp : store) (r' : registry) (hp' : store) : Prop :=
  (nohole hp → le2 hp → nohole hp') ∧ (nonull r → nonull r').

Lemma keeps_refl r hp : keeps r hp r hp.
Proof. by split. Qed.

Lemma rinv_mono s n n' r iss dd pend hp w : n ≤ n' → rinv s n r iss dd pend hp w → rinv s n' r iss dd pend hp w.
Proof. intros Hn []. split; try done. by eapply hinv_mono. Qed.

Lemma rinv_weaken s n r iss dd pend hp w : rinv s n r iss dd pend hp w → rinv false n r iss dd pend hp w.
Proof. intros []. split; try done. by eapply st_weaken. Qed.

Lemma rinv_init s n : rinv s n rg_init [] [] [] [] ∅.
Proof.
  destruct (empty_wf (K := bitset) (V := option nat) bs_hash 16) as [Hwf Habs]; [by exists 4%N|].
  split.
  - split; cbn [rg_init rg_heap rg_table]; try done.
    (* the heap and the table are empty *)
  - by intros a x.
  - apply sm_wf_init. done.
  - split; [|intros h m; rewrite lookup_empty; split; [done|intros [q Hq]; done]].
    intros id l. cbn [rg_init rg_locs]. rewrite sm_abs_init, lookup_empty.
    split; [done|]. intros (q & r & _ & Hq & _). done.
  - eapply hinv_mono; [|apply hinv_init]. lia.
  - intros h [x Hx]. done.
Qed.

Section inv.
Context {s : bool} {n : nat} {r : registry} {iss dd pend : list handle} {hp : store} {w : world}.
Hypothesis H : rinv s n r iss dd pend hp w.

Lemma alive_live h : h ∈ iss → h ∉ dd → h ∉ pend → rg_alive r h = true.
Proof.
  intros H1 H2 H3. unfold rg_alive, pool_alive.
  pose proof (hi_live _ _ (rv_pool _ _ _ _ _ _ _ _ H) h H1 H2 H3) as E. cbn [hs_pool] in E. rewrite E. by apply bool_decide_eq_true.
Qed.

Lemma alive_dead h : h ∈ dd → rg_alive r h = false.
Proof.
  intros H1. destruct (hi_dead _ _ (rv_pool _ _ _ _ _ _ _ _ H) h H1) as (_ & g & Hg & Hlt).
  unfold rg_alive, pool_alive. cbn [hs_pool] in Hg. rewrite Hg. apply bool_decide_eq_false. lia.
Qed.

(** Two alive handles with one id are the same. *)
Lemma alive_same h g : rg_alive r h = true → rg_alive r g = true → h_id h = h_id g → h = g.
Proof.
  unfold rg_alive, pool_alive. intros H1 H2 E. rewrite E in H1. destruct (gens (rg_pool r) !! _); [|done].
  apply bool_decide_eq_true in H1, H2. destruct h, g. cbn in *. congruence.
Qed.

Lemma world_alive h : is_Some (w !! h) → rg_alive r h = true.
Proof. intros (H1 & H2 & H3)%(rv_live _ _ _ _ _ _ _ _ H). by apply alive_live. Qed.

Lemma loc_in h m : w !! h = Some m →
  ∃ a p cs rowss rows, rg_location h r = (r, Ok (loc_of (a, p))) ∧ hp !! a = Some (cs, rowss) ∧
    at_ rowss p = Some (h, m) ∧ rowss !! p.1 = Some rows ∧ full cs (h, m) ∧
    sm_abs (rg_locs r) !! h_id h = Some (loc_of (a, p)).
Proof.
  intros Hw. pose proof Hw as [[a p] Hq]%(lw_world _ _ _ (rv_lw _ _ _ _ _ _ _ _ H)).
  pose proof (lw_place (rv_lw _ _ _ _ _ _ _ _ H) _ _ Hq) as Hl. cbn [fst] in Hl.
  apply hrow_Some in Hq as ([cs rowss] & Ha & Hp). cbn [fst snd] in Ha, Hp.
  destruct (at_Some _ _ _ Hp) as (rows & Hrows & _).
  exists a, p, cs, rowss, rows. split; [|split; [done|]; split; [done|]; split; [done|]; split; [|done]].
  - unfold rg_location. rewrite world_alive by eauto. rewrite (sm_at_spec w32) by apply H. by rewrite Hl.
  - by eapply (rv_full _ _ _ _ _ _ _ _ H _ _ Ha).
Qed.

Lemma loc_free h : w !! h = None → rg_alive r h = true → sm_abs (rg_locs r) !! h_id h = None.
Proof.
  intros Hw Ha. destruct (sm_abs (rg_locs r) !! h_id h) as [l|] eqn:E; [|done]. exfalso.
  apply (lw_locs _ _ _ (rv_lw _ _ _ _ _ _ _ _ H)) in E as (q & [g m] & _ & Hq & Hid). cbn [fst] in Hid.
  assert (w !! g = Some m) as Hg by (apply (lw_world _ _ _ (rv_lw _ _ _ _ _ _ _ _ H)); eauto).
  assert (g = h) as -> by (apply alive_same; [apply world_alive; eauto|done|done]). congruence.
Qed.

Lemma loc_out h : w !! h = None →
  rg_location h r = (r, Throw (if rg_alive r h then OutOfRange else EntityNotFound)).
Proof.
  intros Hw. unfold rg_location. destruct (rg_alive r h) eqn:Ha; [|done].
  rewrite (sm_at_spec w32) by apply H. by rewrite loc_free.
Qed.

Lemma locs_size : (sm_size (rg_locs r) <= N.of_nat n)%N.
Proof.
  rewrite (sm_size_spec w32) by apply H. rewrite <- size_dom.
  assert (dom (sm_abs (rg_locs r)) ⊆ (list_to_set (N.of_nat <$> seq 0 n) : gset N)) as Hsub.
  { intros id [l Hl]%elem_of_dom. apply elem_of_list_to_set, elem_of_list_fmap.
    apply (lw_locs _ _ _ (rv_lw _ _ _ _ _ _ _ _ H)) in Hl as (q & [h m] & _ & Hq & <-). cbn [fst].
    assert (w !! h = Some m) as Hg by (apply (lw_world _ _ _ (rv_lw _ _ _ _ _ _ _ _ H)); eauto).
    destruct (rv_live _ _ _ _ _ _ _ _ H h) as (Hi & _); [eauto|].
    pose proof (hi_iss_lt _ _ (rv_pool _ _ _ _ _ _ _ _ H) h Hi). pose proof (hi_next_le _ _ (rv_pool _ _ _ _ _ _ _ _ H)).
    cbn [hs_pool] in *. exists (N.to_nat (h_id h)). split; [lia|]. apply elem_of_seq. lia. }
  apply subseteq_size in Hsub. rewrite size_list_to_set in Hsub.
  - rewrite fmap_length, seq_length in Hsub. lia.
  - apply NoDup_fmap_2; [apply _|apply NoDup_seq].
Qed.

Lemma locs_room : below_wrap (S n) → (sm_size (rg_locs r) + 1 < w32)%N.
Proof. pose proof locs_size. unfold below_wrap, w32. lia. Qed.

(** size() is the number of entities. *)
Lemma locs_count : sm_size (rg_locs r) = N.of_nat (size w).
Proof.
  rewrite (sm_size_spec w32) by apply H. f_equal. rewrite <- !size_dom.
  assert (dom (sm_abs (rg_locs r)) = set_map h_id (dom w)) as ->.
  { apply set_eq. intros id. rewrite elem_of_map. setoid_rewrite elem_of_dom. split.
    - intros [l Hl]. apply (lw_locs _ _ _ (rv_lw _ _ _ _ _ _ _ _ H)) in Hl as (q & [h m] & _ & Hq & <-).
      exists h. split; [done|]. exists m. apply (lw_world _ _ _ (rv_lw _ _ _ _ _ _ _ _ H)). eauto.
    - intros (h & -> & m & Hm). destruct (loc_in h m Hm) as (?&?&?&?&?&_&_&_&_&_&->). eauto. }
  pose proof world_alive as Ha. pose proof alive_same as Hs. clear H.
  assert (∀ h, h ∈ dom w → rg_alive r h = true) as Hd by (intros h ?%elem_of_dom; auto). clear Ha.
  revert Hd. generalize (dom w). intros X. induction X as [|h X Hn IH] using set_ind_L; intros Hd.
  - by rewrite set_map_empty.
  - rewrite set_map_union_L, set_map_singleton_L. rewrite !size_union, !size_singleton.
    + rewrite IH; [done|]. intros; apply Hd; set_solver.
    + set_solver.
    + intros id ->%elem_of_singleton (g & E & Hg)%elem_of_map.
      assert (h = g) as -> by (apply Hs; [apply Hd; set_solver|apply Hd; set_solver|done]). done.
Qed.
End inv.

Lemma set_loc_spec r id l : sm_wf w32 (rg_locs r) →
  (is_Some (sm_abs (rg_locs r) !! id) ∨ (sm_size (rg_locs r) + 1 < w32)%N) →
  ∃ m, rg_set_location id l r = (rg_set_locs r m, Ok tt) ∧ sm_wf w32 m ∧ sm_abs m = <[id := l]> (sm_abs (rg_locs r)).
Proof.
  intros Hwf Hr. destruct (sm_assign_spec w32 null_loc (rg_locs r) id l Hwf Hr) as (m & E & ? & ?).
  exists m. unfold rg_set_location. by rewrite E.
Qed.

Lemma remove_loc_spec r id l : sm_wf w32 (rg_locs r) → sm_abs (rg_locs r) !! id = Some l →
  ∃ m, rg_remove_location id r = (rg_set_locs r m, Ok tt) ∧ sm_wf w32 m ∧ sm_abs m = delete id (sm_abs (rg_locs r)).
Proof.
  intros Hwf Hr. destruct (sm_erase_present w32 (rg_locs r) id l Hwf Hr) as (m & E & ? & ?).
  exists m. unfold rg_remove_location. by rewrite E.
Qed.

(** The archetype for a list of different components. *)
Lemma ensure_list_spec s r hp cs : st_inv U s r hp → NoDup cs → u_ent U ∉ cs →
  ∃ r' o, rg_ensure_list U cs r = (r', o) ∧ rg_pool r' = rg_pool r ∧ rg_locs r' = rg_locs r ∧
    ((∃ b hp' cs' rowss, o = Ok b ∧ hpe hp hp' ∧ st_inv U s r' hp' ∧ hp' !! b = Some (cs', rowss) ∧
       same_set cs' cs ∧ (nonull r → nonull r')) ∨
     (o = Throw InsufficientChunkSize ∧ get_max_size (u_type U <$> cs) = None ∧ st_inv U s r' hp)).
Proof.
  intros Hs Hnd He. unfold rg_ensure_list, rg_with_search.
  pose proof (ms_create_wf cs) as Hwf. pose proof (ms_create_metas cs Hnd) as Hm.
  set (f := λ s, fold_left (λ b c, bs_set b c true) cs (bs_clear s)).
  assert (f (rg_search r) = ms_ids (ms_create cs)) as Ef.
  { apply canon_ext; [apply fold_set_canon, clear_canon|apply Hwf|]. intros p.
    unfold f. rewrite fold_set_test, clear_test, (mwf_test _ Hwf), Hm. done. }
  set (r1 := rg_set_search r (f (rg_search r))).
  destruct (ensure_spec U HU s r1 hp (f (rg_search r)) (ms_create cs)) as (r' & o & E & Ep & El & Ho).
  { by apply st_frame. }
  { done. }
  { by rewrite Hm. }
  { done. }
  exists r', o. split; [exact E|]. split; [done|]. split; [done|]. rewrite Hm in Ho. exact Ho.
Qed.

Lemma ensure_changed_spec s r hp (f : bitset → bitset) mk : st_inv U s r hp → ms_wf mk → u_ent U ∉ ms_metas mk →
  f (rg_search r) = ms_ids mk →
  ∃ r' o, rg_with_search U f mk r = (r', o) ∧ rg_pool r' = rg_pool r ∧ rg_locs r' = rg_locs r ∧
    ((∃ b hp' cs' rowss, o = Ok b ∧ hpe hp hp' ∧ st_inv U s r' hp' ∧ hp' !! b = Some (cs', rowss) ∧
       same_set cs' (ms_metas mk) ∧ (nonull r → nonull r')) ∨
     (o = Throw InsufficientChunkSize ∧ get_max_size (u_type U <$> ms_metas mk) = None ∧ st_inv U s r' hp)).
Proof.
  intros Hs Hwf He Ef. unfold rg_with_search.
  set (r1 := rg_set_search r (f (rg_search r))).
  destruct (ensure_spec U HU s r1 hp (f (rg_search r)) mk) as (r' & o & E & Ep & El & Ho); [by apply st_frame|done|done|done|].
  exists r', o. split; [exact E|]. split; [done|]. split; [done|]. exact Ho.
Qed.

(** Allocation. *)
Lemma allocate_spec s n r iss dd hp w : rinv s n r iss dd [] hp w → below_wrap (S n) →
  ∃ r' h, rg_allocate r = (r', Ok h) ∧ rinv s (S n) r' (h :: iss) dd [] hp w ∧ h ∉ iss ∧
    w !! h = None ∧ rg_alive r' h = true ∧ rg_heap r' = rg_heap r ∧ rg_table r' = rg_table r ∧ rg_locs r' = rg_locs r.
Proof.
  intros H Hw. unfold rg_allocate. destruct (pool_create (rg_pool r)) as [p o] eqn:E.
  destruct o as [h|e|].
  2:{ unfold pool_create in E. destruct (last (free_ids (rg_pool r))); [|done]. destruct (gens (rg_pool r) !! _); done. }
  2:{ exfalso. by eapply (create_no_ub n (Hist (rg_pool r) iss dd [] []) p), E; apply H. }
  destruct (hinv_create n (rg_pool r) iss dd p h (rv_pool _ _ _ _ _ _ _ _ H) Hw E) as [Hi Ha].
  pose proof (hi_iss_nd _ _ Hi) as Hnd. cbn [hs_issued] in Hnd. apply NoDup_cons in Hnd as [Hh _].
  exists (rg_set_pool r p), h. split; [done|]. split; [|split; [done|]; split; [|done]].
  - destruct H. split; try done.
    + by apply st_frame.
    + intros g Hg. destruct (rv_live0 g Hg) as (? & ? & ?). split; [by right|done].
  - destruct (w !! h) eqn:E2; [|done]. exfalso. apply Hh. eapply (rv_live _ _ _ _ _ _ _ _ H). eauto.
Qed.

(** Placing a new row for an unplaced alive handle. *)
Lemma place_spec s n r iss dd pend hp w r1 hp1 b cs rowss p h m rowss' :
  rinv s n r iss dd pend hp w → (sm_size (rg_locs r) + 1 < w32)%N → w !! h = None →
  h ∈ iss → h ∉ dd → h ∉ pend →
  hpe hp hp1 → hp1 !! b = Some (cs, rowss) → inserted rowss p (h, m) rowss' → full cs (h, m) → ¬ hole rowss' →
  st_inv U s r1 (<[b := (cs, rowss')]> hp1) → rg_pool r1 = rg_pool r → rg_locs r1 = rg_locs r → (nonull r → nonull r1) →
  ∃ r2, rg_set_location (h_id h) (Loc (Some b) p.1 p.2) r1 = (r2, Ok tt) ∧
    rinv s n r2 iss dd pend (<[b := (cs, rowss')]> hp1) (<[h := m]> w) ∧
    keeps r hp r2 (<[b := (cs, rowss')]> hp1).
Proof.
  intros H Hbw Hw H1 H2 H3 He Hb Hins Hf Hnh Hst Ep El Hnn.
  pose proof (alive_live H h H1 H2 H3) as Ha.
  destruct (hrow_inserted _ _ _ _ _ _ _ Hb Hins) as [Hq HR].
  assert (lw (hrow hp1) (sm_abs (rg_locs r)) w) as Hlw.
  { eapply lw_ext; [|apply H]. intros q. by rewrite (hpe_hrow _ _ q He). }
  destruct (set_loc_spec r1 (h_id h) (Loc (Some b) p.1 p.2)) as (mm & E & Hwf & Habs).
  { rewrite El. apply H. }
  { right. by rewrite El. }
  eexists. split; [exact E|]. split.
  - split; cbn [rg_set_locs rg_locs rg_pool].
    + by apply st_frame.
    + eapply full_put; [by eapply hpe_full, H|done|]. eapply inserted_full; [|done|done].
      by eapply (hpe_full _ _ He (rv_full _ _ _ _ _ _ _ _ H) _ _ Hb).
    + done.
    + rewrite Habs, El. change (Loc (Some b) p.1 p.2) with (loc_of (b, p)).
      eapply (lw_insert Hlw); [done|done|]. by apply (loc_free H).
    + rewrite Ep. apply H.
    + intros g [x [[<- _]|[_ Hg]]%lookup_insert_Some]; [done|]. eapply (rv_live _ _ _ _ _ _ _ _ H). eauto.
  - split; [|done]. intros Hno _. apply nohole_put; [by eapply hpe_nohole|done].
Qed.

(** create *)
Lemma create_spec s n r iss dd hp w args : rinv s n r iss dd [] hp w → below_wrap (S n) →
  NoDup args.*1 → u_ent U ∉ args.*1 →
  ∃ r' o h hp', rg_create U args r = (r', o) ∧ h ∉ iss ∧
    ((o = Ok h ∧ rinv s (S n) r' (h :: iss) dd [] hp' (<[h := list_to_map args]> w) ∧ w !! h = None ∧
      keeps r hp r' hp') ∨
     (o = Throw InsufficientChunkSize ∧ get_max_size (u_type U <$> args.*1) = None ∧ hp' = hp ∧
      rinv s (S n) r' (h :: iss) dd [] hp w)).
Proof.
  intros H Hbw Hnd Hent. unfold rg_create.
  destruct (allocate_spec _ _ _ _ _ _ _ H Hbw) as (r1 & h & E1 & H1 & Hh & Hw & Ha & Eh & Et & El).
  rewrite (bind_ok _ _ _ _ _ E1).
  destruct (ensure_list_spec s r1 hp args.*1 (rv_st _ _ _ _ _ _ _ _ H1) Hnd Hent) as (r2 & o2 & E2 & Ep2 & El2 & Ho2).
  destruct Ho2 as [(b & hp' & cs & rowss & -> & He & Hst & Hb & Hss & Hnn)|(-> & Hg & Hst)].
  - rewrite (bind_ok _ _ _ _ _ E2).
    destruct (st_arch U _ _ _ _ _ Hst Hb) as (ar & Har & Hrep). cbn [fst snd] in Hrep.
    assert (args.*1 ≡ₚ cs) as Hperm.
    { apply NoDup_Permutation; [done| |intros x; symmetry; apply Hss].
      pose proof (bo_nd _ _ _ _ (ap_bl _ _ _ _ _ Hrep)) as Hx. by apply NoDup_cons in Hx as [_ Hx]. }
    destruct (ar_emplace_spec U s ar cs rowss h args Hrep Hperm) as (ar' & rowss' & p & Em & Hrep' & Hsame & Hins & Hnh & Hlen).
    rewrite (bind_ok _ _ _ _ _ (on_arch_run _ _ _ _ _ _ Har Em)).
    pose proof (st_put U _ _ _ _ _ _ _ _ _ Hst Har Hb Hsame Hrep') as Hst'.
    destruct (place_spec s (S n) r1 (h :: iss) dd [] hp w (rg_set_heap r2 (<[b := ar']> (rg_heap r2))) hp' b cs rowss p h
      (list_to_map args) rowss' H1) as (r3 & E3 & H3 & Hk).
    + rewrite El. by eapply locs_room.
    + done.
    + by left.
    + intros Hd. apply Hh. by apply (hi_dead _ _ (rv_pool _ _ _ _ _ _ _ _ H)).
    + apply not_elem_of_nil.
    + done.
    + done.
    + done.
    + unfold full. cbn [snd]. rewrite dom_list_to_map_L. by rewrite Hperm.
    + done.
    + done.
    + cbn. congruence.
    + cbn. congruence.
    + exact Hnn.
    + rewrite (bind_ok _ _ _ _ _ E3). eexists _, _, h, _. split; [done|]. split; [done|]. left.
      split; [done|]. split; [done|]. split; [done|].
      destruct Hk as [Hk1 Hk2]. split; [done|]. intros Hnn0. apply Hk2. unfold nonull. by rewrite Et.
  - rewrite (bind_throw _ _ _ _ _ E2). eexists _, _, h, hp. split; [done|]. split; [done|]. right.
    split; [done|]. split; [done|]. split; [done|]. destruct H1. split; rewrite ?Ep2, ?El2; done.
Qed.

(** The entity is not in the last row of its chunk, and the last chunk of its archetype is empty. *)
Definition trap (hp : store) (h : handle) : Prop := ∃ (a : nat) x p m rows, hp !! a = Some x ∧ at_ x.2 p = Some (h, m) ∧
  x.2 !! p.1 = Some rows ∧ ¬ (S p.2 = length rows ∨ last x.2 ≠ Some []).

Lemma not_cond_hole rowss p r rows : at_ rowss p = Some r → rowss !! p.1 = Some rows →
  ¬ (S p.2 = length rows ∨ last rowss ≠ Some []) → hole rowss.
Proof.
  intros Hp Hrows Hn. destruct (at_Some _ _ _ Hp) as (rows' & E & Hr). rewrite Hrows in E. injection E as <-.
  assert (last rowss = Some []) as Hl.
  { destruct (decide (last rowss = Some [])); [done|]. exfalso. apply Hn. by right. }
  split; [done|]. destruct rowss as [|x [|y rowss]]; [done| |cbn; lia].
  cbn in Hl. injection Hl as ->. destruct (p.1) as [|k]; cbn in Hrows; [|done]. by injection Hrows as <-.
Qed.

(** destroy *)
Lemma destroy_spec s n r iss dd hp w h m : rinv s n r iss dd [] hp w → below_wrap (S n) → w !! h = Some m →
  (∃ r' hp', rg_destroy U h r = (r', Ok tt) ∧ rinv s (S n) r' iss (h :: dd) [] hp' (delete h w) ∧ keeps r hp r' hp') ∨
  (trap hp h ∧ (rg_destroy U h r).2 = UB).
Proof.
  intros H Hbw Hw. destruct (loc_in H h m Hw) as (a & p & cs & rowss & rows & El & Ha & Hp & Hrows & Hf & Hl).
  unfold rg_destroy. rewrite (bind_ok _ _ _ _ _ El). unfold loc_of. cbn [lc_arch lc_chunk lc_row fst snd].
  destruct (st_arch U _ _ _ _ _ (rv_st _ _ _ _ _ _ _ _ H) Ha) as (ar & Har & Hrep). cbn [fst snd] in Hrep.
  pose proof (ar_swap_erase_spec U HU s ar cs rowss p (h, m) rows Hrep (rv_full _ _ _ _ _ _ _ _ H _ _ Ha) Hp Hrows) as Hse.
  case_decide as Hc.
  - left. destruct Hse as (ar' & rowss' & moved & Em & Hsame & Hrep' & Her & Hlen & Hh2).
    rewrite (bind_ok _ _ _ _ _ (on_arch_run _ _ _ _ _ _ Har Em)).
    pose proof (st_put U _ _ _ _ _ _ _ _ _ (rv_st _ _ _ _ _ _ _ _ H) Har Ha Hsame Hrep') as Hst'.
    destruct (lw_erased _ _ _ _ _ _ _ _ _ _ _ Ha Hp Her (rv_lw _ _ _ _ _ _ _ _ H)) as [Hlw Hmv].
    set (r1 := rg_set_heap r (<[a := ar']> (rg_heap r))) in *.
    destruct (remove_loc_spec r1 (h_id h) (loc_of (a, p))) as (l1 & E1 & Hwf1 & Habs1); [apply H|done|].
    rewrite (bind_ok _ _ _ _ _ E1).
    assert (∃ l2, (match moved with Some g => rg_set_location (h_id g) (Loc (Some a) p.1 p.2) | None => ret tt end)
                  (rg_set_locs r1 l1) = (rg_set_locs r1 l2, Ok tt) ∧ sm_wf w32 l2 ∧
                  sm_abs l2 = match moved with Some g => <[h_id g := loc_of (a, p)]> (delete (h_id h) (sm_abs (rg_locs r)))
                    | None => delete (h_id h) (sm_abs (rg_locs r)) end) as (l2 & E2 & Hwf2 & Habs2).
    { destruct moved as [g|].
      - destruct Hmv as [Hne Hg].
        destruct (set_loc_spec (rg_set_locs r1 l1) (h_id g) (Loc (Some a) p.1 p.2)) as (l2 & E2 & ? & Habs2).
        + done.
        + left. cbn [rg_set_locs rg_locs]. rewrite Habs1. by rewrite lookup_delete_ne.
        + exists l2. split; [exact E2|]. split; [done|]. rewrite Habs2. cbn [rg_set_locs rg_locs]. by rewrite Habs1.
      - by exists l1. }
    rewrite (bind_ok _ _ _ _ _ E2).
    eexists _, (<[a := (cs, rowss')]> hp). split; [done|]. split.
    + split; cbn [rg_set_pool rg_set_locs rg_locs rg_pool].
      * by apply (st_frame U _ _ _ _ _ _ Hst').
      * eapply full_put; [apply H|done|]. eapply erased_full; [|done]. by eapply (rv_full _ _ _ _ _ _ _ _ H _ _ Ha).
      * done.
      * rewrite Habs2. done.
      * apply hinv_recycle; [apply H|done|]. by apply (rv_live _ _ _ _ _ _ _ _ H); eauto.
      * intros g Hg. apply lookup_delete_is_Some in Hg as [Hne Hg].
        destruct (rv_live _ _ _ _ _ _ _ _ H g Hg) as (? & ? & ?). split; [done|]. split; [|done]. set_solver.
    + split; [|done]. intros Hno H2. apply nohole_put; [done|]. cbn [snd]. apply Hh2. by apply (H2 _ _ Ha).
  - right. split.
    + by exists a, (cs, rowss), p, m, rows.
    + apply bind_ub. unfold on_arch. rewrite Har. destruct (ar_swap_erase U p.1 p.2 ar) as [? ?]. done.
Qed.

(** Moving a row to another archetype of the same registry. *)
Lemma relocate_spec s r hp w a p cs rowss rows b cs2 rowss2 h m :
  st_inv U s r hp → fullhp hp → sm_wf w32 (rg_locs r) → lw (hrow hp) (sm_abs (rg_locs r)) w →
  hp !! a = Some (cs, rowss) → hp !! b = Some (cs2, rowss2) → a ≠ b →
  at_ rowss p = Some (h, m) → rowss !! p.1 = Some rows →
  (∃ r1 q moved rowss' rowss2',
     let hp' := <[b := (cs2, rowss2')]> (<[a := (cs, rowss')]> hp) in
     on_arch2 (Some a) (Some b) (ar_move U p.1 p.2) r = (r1, Ok (q, moved)) ∧
     rg_pool r1 = rg_pool r ∧ rg_table r1 = rg_table r ∧ rg_locs r1 = rg_locs r ∧
     st_inv U s r1 hp' ∧ at_ rowss2' q = Some (h, restrict cs2 m) ∧
     (∃ l, (((match moved with Some g => rg_set_location (h_id g) (Loc (Some a) p.1 p.2) | None => ret tt end) ;;!
              rg_set_location (h_id h) (Loc (Some b) q.1 q.2)) r1 = (rg_set_locs r1 l, Ok tt)) ∧
        sm_wf w32 l ∧ lw (hrow hp') (sm_abs l) (<[h := restrict cs2 m]> w)) ∧
     (∀ m', full cs2 (h, m') → fullhp (<[b := (cs2, alter (<[q.2 := (h, m')]>) q.1 rowss2')]> (<[a := (cs, rowss')]> hp))) ∧
     (full cs2 (h, restrict cs2 m) → fullhp hp') ∧
     (nohole hp → le2 hp → nohole hp')) ∨
  (trap hp h ∧ (on_arch2 (Some a) (Some b) (ar_move U p.1 p.2) r).2 = UB).
Proof.
  intros Hst Hf Hwf Hlw Ha Hb Hab Hp Hrows.
  destruct (st_arch U _ _ _ _ _ Hst Ha) as (ar & Har & Hrep). cbn [fst snd] in Hrep.
  destruct (st_arch U _ _ _ _ _ Hst Hb) as (br & Hbr & Hrep2). cbn [fst snd] in Hrep2.
  pose proof (ar_move_spec U HU s s ar cs rowss br cs2 rowss2 p (h, m) rows Hrep (Hf _ _ Ha) Hrep2 Hp Hrows) as Hmv.
  case_decide as Hc.
  - left. destruct Hmv as (ar' & br' & rowss' & rowss2' & moved & q & Em & Hs1 & Hs2 & Hr1 & Hr2 & Her & Hins & _ & Hh1 & _ & Hh2).
    cbn [fst snd] in Hins.
    set (r1 := rg_set_heap r (<[b := br']> (<[a := ar']> (rg_heap r)))).
    exists r1, q, moved, rowss', rowss2'. cbn zeta.
    assert (Hb' : (<[a := (cs, rowss')]> hp) !! b = Some (cs2, rowss2)) by (by rewrite list_lookup_insert_ne).
    assert (on_arch2 (Some a) (Some b) (ar_move U p.1 p.2) r = (r1, Ok (q, moved))) as E1.
    { unfold on_arch2. rewrite decide_False by done. by rewrite Har, Hbr, Em. }
    assert (st_inv U s r1 (<[b := (cs2, rowss2')]> (<[a := (cs, rowss')]> hp))) as Hst1.
    { pose proof (st_put U _ _ _ _ _ _ _ _ _ Hst Har Ha Hs1 Hr1) as Hst1.
      refine (st_put U _ _ _ _ _ _ _ _ _ Hst1 _ Hb' Hs2 Hr2). cbn. by rewrite list_lookup_insert_ne. }
    destruct (lw_erased _ _ _ _ _ _ _ _ _ _ _ Ha Hp Her Hlw) as [Hlw1 Hmv].
    destruct (hrow_inserted _ _ _ _ _ _ _ Hb' Hins) as [Hq HR].
    assert (Hat : at_ rowss2' q = Some (h, restrict cs2 m)) by (destruct Hins as [_ ->]; by rewrite decide_True).
    assert (Hq0 : hrow hp (a, p) = Some (h, m)) by (unfold hrow; cbn [fst snd]; by rewrite Ha).
    assert (Hfull1 : fullhp (<[a := (cs, rowss')]> hp)).
    { eapply full_put; [done|done|]. eapply erased_full; [|done]. by apply (Hf _ _ Ha). }
    split; [done|]. split; [done|]. split; [done|]. split; [done|]. split; [done|]. split; [done|].
    split; [|split; [|split]].
    + assert (∃ l1, (match moved with Some g => rg_set_location (h_id g) (Loc (Some a) p.1 p.2) | None => ret tt end) r1
         = (rg_set_locs r1 l1, Ok tt) ∧ sm_wf w32 l1 ∧
         sm_abs l1 = match moved with Some g => <[h_id g := loc_of (a, p)]> (sm_abs (rg_locs r)) | None => sm_abs (rg_locs r) end)
        as (l1 & E2 & Hwf1 & Habs1).
      { destruct moved as [g|].
        - apply (set_loc_spec r1); [done|]. left. apply Hmv.
        - exists (rg_locs r). split; [by destruct r|done]. }
      destruct (set_loc_spec (rg_set_locs r1 l1) (h_id h) (Loc (Some b) q.1 q.2)) as (l2 & E3 & Hwf2 & Habs2).
      { done. }
      { left. cbn [rg_set_locs rg_locs]. rewrite Habs1. pose proof (lw_place Hlw _ _ Hq0) as Hl. cbn [fst] in Hl.
        destruct moved as [g|]; [|eauto]. rewrite lookup_insert_ne by apply Hmv. eauto. }
      exists l2. split; [|split; [done|]].
      * rewrite (bind_ok _ _ _ _ _ E2). exact E3.
      * rewrite Habs2. cbn [rg_set_locs rg_locs].
        eapply (lw_insert Hlw1 _ (b, q) h (restrict cs2 m)) in HR; [|done|].
        -- rewrite insert_delete_insert in HR. 
           replace (<[h_id h := _]> (sm_abs l1)) with
             (<[h_id h := loc_of (b, q)]> (match moved with
                 | Some g => <[h_id g := loc_of (a, p)]> (delete (h_id h) (sm_abs (rg_locs r)))
                 | None => delete (h_id h) (sm_abs (rg_locs r)) end)); [done|].
           rewrite Habs1. destruct moved as [g|].
           ++ destruct Hmv as [Hne _]. rewrite <- (delete_insert_ne _ (h_id h) (h_id g)) by done.
              by rewrite insert_delete_insert.
           ++ by rewrite insert_delete_insert.
        -- destruct moved as [g|].
           ++ rewrite lookup_insert_ne by apply Hmv. apply lookup_delete.
           ++ apply lookup_delete.
    + intros m' Hm'. eapply full_put; [done|done|]. intros q' r' Hr'.
      rewrite (at_put _ _ _ _ _ Hat) in Hr'. case_decide; [by injection Hr' as <-|].
      destruct Hins as [_ Hi]. rewrite Hi in Hr'. rewrite decide_False in Hr' by done. by eapply (Hf _ _ Hb).
    + intros Hm'. eapply full_put; [done|done|]. eapply inserted_full; [by apply (Hf _ _ Hb)|done|done].
    + intros Hno Hle. apply nohole_put; [|done]. apply nohole_put; [done|]. apply Hh1. by apply (Hle _ _ Ha).
  - right. split.
    + by exists a, (cs, rowss), p, m, rows.
    + unfold on_arch2. rewrite decide_False by done. rewrite Har, Hbr.
      destruct (ar_move U p.1 p.2 (ar, br)) as [[? ?] ?]. done.
Qed.

Lemma restrict_all (l : list cid) m : (∀ c, is_Some (m !! c) → c ∈ l) → restrict l m = m.
Proof.
  intros Hl. apply map_eq. intros c. rewrite restrict_lookup. case_decide as E; [done|].
  destruct (m !! c) eqn:Em; [|done]. exfalso. apply E, Hl. eauto.
Qed.

Lemma full_elem cs h m c : full cs (h, m) → c ∈ cs ↔ is_Some (m !! c).
Proof. unfold full. cbn [snd]. intros Hf. rewrite <- elem_of_dom, Hf. by rewrite elem_of_list_to_set. Qed.

Lemma full_of cs h m : (∀ c, c ∈ cs ↔ is_Some (m !! c)) → full cs (h, m).
Proof. intros Hf. unfold full. cbn [snd]. apply set_eq. intros c. by rewrite elem_of_dom, elem_of_list_to_set, Hf. Qed.

(** Components in the order of some archetype. *)
Definition lists (cs : list cid) (m : gmap cid val) : Prop := NoDup cs ∧ ∀ c, c ∈ cs ↔ is_Some (m !! c).

Lemma set_impl_present s n r iss dd pend hp w h m c v : rinv s n r iss dd pend hp w → w !! h = Some m → m !! c = Some v →
  ∃ (a : nat) p cs rowss ar, rg_set_impl U h c r = (r, Ok (false, (a, p.1, ad (ar_blocks ar) c p.2))) ∧
    hp !! a = Some (cs, rowss) ∧ rg_heap r !! a = Some ar ∧ ar_repr U s ar cs rowss ∧ at_ rowss p = Some (h, m) ∧
    c ∈ cs ∧ full cs (h, m).
Proof.
  intros H Hw Hc. destruct (loc_in H h m Hw) as (a & p & cs & rowss & rows & El & Ha & Hp & Hrows & Hf & Hl).
  destruct (st_arch U _ _ _ _ _ (rv_st _ _ _ _ _ _ _ _ H) Ha) as (ar & Har & Hrep). cbn [fst snd] in Hrep.
  assert (c ∈ cs) as Hcs by (apply (full_elem _ _ _ _ Hf); eauto).
  exists a, p, cs, rowss, ar. split; [|done].
  unfold rg_set_impl. rewrite (bind_ok _ _ _ _ _ El). cbn [loc_of lc_arch lc_chunk lc_row fst snd default].
  rewrite (bind_ok _ _ _ _ _ (rg_arch_run _ _ _ Har)). rewrite (ar_contains_spec U _ _ _ _ c Hrep).
  rewrite bool_decide_true by done.
  pose proof (ar_ref_spec U _ _ _ _ _ _ c Hrep Hp) as Er. rewrite decide_True in Er by (by right).
  rewrite (bind_ok _ _ _ _ _ (on_arch_same _ _ _ _ _ Har Er)). done.
Qed.

Lemma set_impl_absent s n r iss dd pend hp w h m c : rinv s n r iss dd pend hp w → w !! h = Some m → m !! c = None →
  c ≠ u_ent U →
  (∃ r' b q cs2 rowss2 hp2 br, rg_set_impl U h c r = (r', Ok (true, (b, q.1, ad (ar_blocks br) c q.2))) ∧
     st_inv U s r' hp2 ∧ hp2 !! b = Some (cs2, rowss2) ∧ rg_heap r' !! b = Some br ∧ ar_repr U s br cs2 rowss2 ∧
     at_ rowss2 q = Some (h, m) ∧ c ∈ cs2 ∧ sm_wf w32 (rg_locs r') ∧ lw (hrow hp2) (sm_abs (rg_locs r')) w ∧
     rg_pool r' = rg_pool r ∧ keeps r hp r' hp2 ∧
     ∀ v, fullhp (<[b := (cs2, alter (<[q.2 := (h, <[c := v]> m)]>) q.1 rowss2)]> hp2)) ∨
  (∃ r' cs, rg_set_impl U h c r = (r', Throw InsufficientChunkSize) ∧ rinv s n r' iss dd pend hp w ∧
     lists cs m ∧ get_max_size (u_type U <$> cs ++ [c]) = None) ∨
  (trap hp h ∧ (rg_set_impl U h c r).2 = UB).
Proof.
  intros H Hw Hc Hent. destruct (loc_in H h m Hw) as (a & p & cs & rowss & rows & El & Ha & Hp & Hrows & Hf & Hl).
  destruct (st_arch U _ _ _ _ _ (rv_st _ _ _ _ _ _ _ _ H) Ha) as (ar & Har & Hrep). cbn [fst snd] in Hrep.
  assert (c ∉ cs) as Hcs by (rewrite (full_elem _ _ _ c Hf), Hc; by intros [? ?]).
  pose proof (ap_ms _ _ _ _ _ Hrep) as Hms. pose proof (ap_cs _ _ _ _ _ Hrep) as Ecs.
  unfold rg_set_impl. rewrite (bind_ok _ _ _ _ _ El). cbn [loc_of lc_arch lc_chunk lc_row fst snd default].
  rewrite (bind_ok _ _ _ _ _ (rg_arch_run _ _ _ Har)). rewrite (ar_contains_spec U _ _ _ _ c Hrep).
  rewrite bool_decide_false by done.
  pose proof (ms_insert_wf _ c Hms) as Hwf2. pose proof (ms_insert_metas _ c Hms) as Em2.
  rewrite Ecs, decide_False in Em2 by done.
  destruct (ensure_changed_spec s r hp (λ _, bs_set (ms_ids (ar_comps ar)) c true) (ms_insert (ar_comps ar) c))
    as (r1 & o1 & E1 & Ep1 & El1 & Ho1).
  { apply H. }
  { done. }
  { rewrite Em2. pose proof (si_ent _ _ _ _ (rv_st _ _ _ _ _ _ _ _ H) _ _ Ha). cbn [fst] in *. set_solver. }
  { apply canon_ext; [by apply set_true_canon, Hms|apply Hwf2|]. intros x.
    rewrite set_true_test, (mwf_test _ Hms), (mwf_test _ Hwf2), Em2, Ecs.
    destruct (decide (x = c)) as [->|Hn].
    - rewrite (bool_decide_true (c = c)) by done. symmetry. apply bool_decide_eq_true. set_solver.
    - rewrite (bool_decide_false (x = c)) by done. apply bool_decide_ext. set_solver. }
  rewrite Em2 in Ho1. fold (rg_ensure_added U ar c) in E1.
  destruct Ho1 as [(b & hp1 & cs2 & rowss2 & -> & He & Hst1 & Hb & Hss & Hnn)|(-> & Hg & Hst1)].
  2:{ right; left. rewrite (bind_throw _ _ _ _ _ E1). exists r1, cs. split; [done|]. split.
      - destruct H. split; rewrite ?Ep1, ?El1; done.
      - split; [|done]. split.
        + rewrite <- Ecs. apply Hms.
        + intros x. by apply (full_elem _ h). }
  rewrite (bind_ok _ _ _ _ _ E1).
  assert (a ≠ b) as Hab.
  { intros ->. rewrite (hpe_lookup _ _ _ _ He Ha) in Hb. injection Hb as -> _. apply Hcs, Hss. set_solver. }
  assert (restrict cs2 m = m) as Eres.
  { apply restrict_all. intros x Hx. apply Hss, elem_of_app. left. by apply (full_elem _ _ _ _ Hf). }
  destruct (relocate_spec s r1 hp1 w a p cs rowss rows b cs2 rowss2 h m Hst1) as
    [(r2 & q & moved & rowss' & rowss2' & E2 & Ep2 & Et2 & El2 & Hst2 & Hat & (l & E3 & Hwfl & Hlwl) & Hfull & _ & Hno)|[Hho Hub]].
  { eapply hpe_full; [done|apply H]. }
  { rewrite El1. apply H. }
  { rewrite El1. eapply lw_ext; [|apply H]. intros x. by rewrite (hpe_hrow _ _ x He). }
  { by eapply hpe_lookup. }
  { done. }
  { done. }
  { done. }
  { done. }
  - left. rewrite (bind_ok _ _ _ _ _ E2). cbn [fst snd]. rewrite Eres in Hat, Hlwl.
    rewrite (insert_id w h m Hw) in Hlwl.
    set (hp2 := <[b := (cs2, rowss2')]> (<[a := (cs, rowss')]> hp1)) in *.
    assert (hp2 !! b = Some (cs2, rowss2')) as Hb2.
    { unfold hp2. rewrite list_lookup_insert; [done|]. rewrite insert_length. by eapply lookup_lt_Some. }
    destruct (st_arch U _ _ _ _ _ Hst2 Hb2) as (br & Hbr & Hrep2). cbn [fst snd] in Hrep2.
    pose proof (ar_ref_spec U _ _ _ _ _ _ c Hrep2 Hat) as Er.
    assert (c ∈ cs2) as Hc2 by (apply Hss; set_solver).
    rewrite decide_True in Er by (by right).
    rewrite (bind_ok _ _ _ _ _ (on_arch_same _ _ _ _ _ Hbr Er)).
    exists (rg_set_locs r2 l), b, q, cs2, rowss2', hp2, br.
    split.
    { eapply bind_seq in E3. exact E3. }
    split; [by apply st_frame|]. split; [done|]. split; [done|]. split; [done|]. split; [done|]. split; [done|].
    split; [done|]. split; [done|]. split; [cbn; congruence|]. split.
    + split.
      * intros Hn1 Hn2. apply Hno; [by eapply hpe_nohole|by eapply hpe_le2].
      * intros Hn. specialize (Hnn Hn). unfold nonull in *. cbn [rg_set_locs rg_table]. by rewrite Et2.
    + intros v. unfold hp2. rewrite list_insert_insert. apply Hfull. apply full_of. intros x.
      rewrite (Hss x), elem_of_app, elem_of_list_singleton.
      rewrite (full_elem _ _ _ x Hf). destruct (decide (x = c)) as [->|Hx].
      * rewrite lookup_insert. split; [eauto|]. intros _. by right.
      * rewrite lookup_insert_ne by done. split; [by intros [?|?]|by left].
  - right; right. split.
    + destruct Hho as (k & x & p' & m' & rows' & Hk & Hx & Hx'). destruct (hpe_inv _ _ _ _ He Hk) as [?|E]; [by exists k, x, p', m', rows'|].
      rewrite E in Hx. apply at_Some in Hx as (l0 & Hl0 & Hx). apply list_lookup_singleton_Some in Hl0 as [_ <-]. done.
    + by apply bind_ub.
Qed.

(** Writing one component of a row through its pointer. *)
Lemma write_spec s n r iss dd pend hp w r1 hp1 b br q cs2 rowss2 h m c v (mk : N → M chunk unit) :
  rinv s n r iss dd pend hp w → w !! h = Some m →
  st_inv U s r1 hp1 → hp1 !! b = Some (cs2, rowss2) → rg_heap r1 !! b = Some br → at_ rowss2 q = Some (h, m) →
  sm_wf w32 (rg_locs r1) → lw (hrow hp1) (sm_abs (rg_locs r1)) w → rg_pool r1 = rg_pool r → keeps r hp r1 hp1 →
  fullhp (<[b := (cs2, alter (<[q.2 := (h, <[c := v]> m)]>) q.1 rowss2)]> hp1) →
  (∃ br', on_chunk q.1 (mk (ad (ar_blocks br) c q.2)) br = (br', Ok tt) ∧ same_arch br br' ∧
     ar_repr U s br' cs2 (alter (<[q.2 := (h, <[c := v]> m)]>) q.1 rowss2)) →
  ∃ r' hp', at_ptr (b, q.1, ad (ar_blocks br) c q.2) mk r1 = (r', Ok tt) ∧
    rinv s n r' iss dd pend hp' (<[h := <[c := v]> m]> w) ∧ keeps r hp r' hp' ∧
    ∃ br', hp' !! b = Some (cs2, alter (<[q.2 := (h, <[c := v]> m)]>) q.1 rowss2) ∧ rg_heap r' !! b = Some br' ∧
      same_arch br br' ∧ ar_repr U s br' cs2 (alter (<[q.2 := (h, <[c := v]> m)]>) q.1 rowss2).
Proof.
  intros H Hw Hst Hb Hbr Hat Hwf Hlw Ep [Hk1 Hk2] Hfull (br' & Em & Hs & Hrep').
  exists (rg_set_heap r1 (<[b := br']> (rg_heap r1))), (<[b := (cs2, alter (<[q.2 := (h, <[c := v]> m)]>) q.1 rowss2)]> hp1).
  split; [|split; [|split]].
  - unfold at_ptr. cbn [fst snd]. by rewrite (on_arch_run _ _ _ _ _ _ Hbr Em).
  - split.
    + by eapply st_put.
    + done.
    + done.
    + cbn [rg_set_heap rg_locs]. eapply (lw_update Hlw _ (b, q) h m).
      * unfold hrow. cbn [fst snd]. by rewrite Hb.
      * by eapply hrow_alter.
    + cbn [rg_set_heap rg_pool]. rewrite Ep. apply H.
    + intros g [x [[<- _]|[_ Hg]]%lookup_insert_Some]; apply (rv_live _ _ _ _ _ _ _ _ H); eauto.
  - split; [|done]. intros Hn1 Hn2. apply nohole_put; [by apply Hk1|]. cbn [snd].
    rewrite hole_put. by apply (Hk1 Hn1 Hn2 _ _ Hb).
  - exists br'. split; [by rewrite list_lookup_insert by (by eapply lookup_lt_Some)|].
    split; [cbn; by rewrite list_lookup_insert by (by eapply lookup_lt_Some)|]. done.
Qed.

Lemma full_insert cs h m c v : full cs (h, m) → c ∈ cs → full cs (h, <[c := v]> m).
Proof.
  intros Hf Hc. apply full_of. intros x. rewrite (full_elem _ _ _ x Hf). destruct (decide (x = c)) as [->|].
  - rewrite lookup_insert. split; [eauto|]. intros _. by apply (full_elem _ _ _ _ Hf).
  - by rewrite lookup_insert_ne.
Qed.

(** set *)
Lemma set_spec s n r iss dd pend hp w h m c v : rinv s n r iss dd pend hp w → w !! h = Some m → c ≠ u_ent U →
  (∃ r' hp', rg_set U h c (CtorOk v) r = (r', Ok tt) ∧ rinv s n r' iss dd pend hp' (<[h := <[c := v]> m]> w) ∧ keeps r hp r' hp') ∨
  (∃ r' cs, rg_set U h c (CtorOk v) r = (r', Throw InsufficientChunkSize) ∧ rinv s n r' iss dd pend hp w ∧
     m !! c = None ∧ lists cs m ∧ get_max_size (u_type U <$> cs ++ [c]) = None) ∨
  (trap hp h ∧ m !! c = None ∧ (rg_set U h c (CtorOk v) r).2 = UB).
Proof.
  intros H Hw Hent. unfold rg_set. destruct (m !! c) as [v0|] eqn:Hc.
  - left. destruct (set_impl_present _ _ _ _ _ _ _ _ _ _ _ _ H Hw Hc) as (a & p & cs & rowss & ar & E & Ha & Har & Hrep & Hp & Hcs & Hf).
    rewrite (bind_ok _ _ _ _ _ E). cbn [fst snd].
    destruct (write_spec s n r iss dd pend hp w r hp a ar p cs rowss h m c v (λ off, assign_obj off (CVal v)))
      as (r' & hp' & E' & H' & Hk & _); try done; try apply H.
    + intros b x [(-> & <- & _)|[_ Hb]]%list_lookup_insert_Some; [|by eapply (rv_full _ _ _ _ _ _ _ _ H)].
      cbn [fst snd]. intros q' r' Hr'. rewrite (at_put _ _ _ _ _ Hp) in Hr'. case_decide.
      * injection Hr' as <-. by apply full_insert.
      * by eapply (rv_full _ _ _ _ _ _ _ _ H _ _ Ha).
    + apply (ar_assign_spec U _ _ _ _ _ (h, m) c v Hrep Hp Hcs). cbn [snd]. eauto.
    + by exists r', hp'.
  - destruct (set_impl_absent _ _ _ _ _ _ _ _ _ _ c H Hw Hc Hent) as
      [(r1 & b & q & cs2 & rowss2 & hp2 & br & E & Hst & Hb & Hbr & Hrep & Hat & Hc2 & Hwf & Hlw & Ep & Hk & Hfull)|[(r1 & cs & E & H1 & H2)|[Hh Hub]]].
    + left. rewrite (bind_ok _ _ _ _ _ E). cbn [fst snd].
      destruct (write_spec s n r iss dd pend hp w r1 hp2 b br q cs2 rowss2 h m c v (λ off, construct_at off (CVal v)))
        as (r' & hp' & E' & H' & Hk' & _); try done.
      * apply (ar_construct_spec U _ _ _ _ _ (h, m) c v Hrep Hat Hc2). done.
      * by exists r', hp'.
    + right; left. rewrite (bind_throw _ _ _ _ _ E). exists r1, cs. done.
    + right; right. split; [done|]. split; [done|]. by apply bind_ub.
Qed.

(** get_or_insert, and the value read through the returned reference *)
Lemma get_or_insert_spec s n r iss dd pend hp w h m c v : rinv s n r iss dd pend hp w → w !! h = Some m → c ≠ u_ent U →
  (∃ r' hp', rg_get_or_insert U h c (CtorOk v) r = (r', Ok (CVal (default v (m !! c)))) ∧
     rinv s n r' iss dd pend hp' (<[h := <[c := default v (m !! c)]> m]> w) ∧ keeps r hp r' hp') ∨
  (∃ r' cs, rg_get_or_insert U h c (CtorOk v) r = (r', Throw InsufficientChunkSize) ∧ rinv s n r' iss dd pend hp w ∧
     m !! c = None ∧ lists cs m ∧ get_max_size (u_type U <$> cs ++ [c]) = None) ∨
  (trap hp h ∧ m !! c = None ∧ (rg_get_or_insert U h c (CtorOk v) r).2 = UB).
Proof.
  intros H Hw Hent. unfold rg_get_or_insert. destruct (m !! c) as [v0|] eqn:Hc.
  - left. destruct (set_impl_present _ _ _ _ _ _ _ _ _ _ _ _ H Hw Hc) as (a & p & cs & rowss & ar & E & Ha & Har & Hrep & Hp & Hcs & Hf).
    rewrite (bind_ok _ _ _ _ _ E). cbn [fst snd default]. rewrite (bind_ok _ (λ _, at_ptr _ _) _ _ _ (eq_refl : ret tt r = (r, Ok tt))).
    pose proof (ar_read_spec U _ _ _ _ _ (h, m) c v0 Hrep Hp Hcs Hc) as Er.
    exists r, hp. split; [|split; [|apply keeps_refl]].
    + unfold at_ptr. cbn [fst snd]. by apply (on_arch_same _ _ _ _ _ Har Er).
    + cbn [from_option id]. rewrite (insert_id m c v0 Hc), (insert_id w h m Hw). done.
  - destruct (set_impl_absent _ _ _ _ _ _ _ _ _ _ c H Hw Hc Hent) as
      [(r1 & b & q & cs2 & rowss2 & hp2 & br & E & Hst & Hb & Hbr & Hrep & Hat & Hc2 & Hwf & Hlw & Ep & Hk & Hfull)|[(r1 & cs & E & H1 & H2)|[Hh Hub]]].
    + left. rewrite (bind_ok _ _ _ _ _ E). cbn [fst snd default].
      destruct (write_spec s n r iss dd pend hp w r1 hp2 b br q cs2 rowss2 h m c v (λ off, construct_at off (CVal v)))
        as (r' & hp' & E' & H' & Hk' & br' & Hb' & Hbr' & Hs' & Hrep'); try done.
      * apply (ar_construct_spec U _ _ _ _ _ (h, m) c v Hrep Hat Hc2). done.
      * exists r', hp'. split; [|done]. rewrite (bind_ok _ _ _ _ _ E').
        unfold at_ptr. cbn [fst snd]. eapply on_arch_same; [done|].
        destruct Hs' as (_ & Ebl & _). rewrite <- Ebl.
        eapply (ar_read_spec U _ _ _ _ _ (h, <[c := v]> m)); [done| |done|apply lookup_insert].
        rewrite (at_put _ _ _ _ _ Hat). by rewrite decide_True.
    + right; left. rewrite (bind_throw _ _ _ _ _ E). exists r1, cs. done.
    + right; right. split; [done|]. split; [done|]. by apply bind_ub.
Qed.

(** remove *)
Lemma remove_spec s n r iss dd pend hp w h m c : rinv s n r iss dd pend hp w → w !! h = Some m →
  (∃ r' hp', rg_remove U h c r = (r', Ok tt) ∧ rinv s n r' iss dd pend hp' (<[h := delete c m]> w) ∧ keeps r hp r' hp') ∨
  (∃ r' cs, rg_remove U h c r = (r', Throw InsufficientChunkSize) ∧ rinv s n r' iss dd pend hp w ∧
     is_Some (m !! c) ∧ lists cs m ∧ is_Some (get_max_size (u_type U <$> cs)) ∧
     get_max_size (u_type U <$> filter (λ x, x ≠ c) cs) = None) ∨
  (trap hp h ∧ is_Some (m !! c) ∧ (rg_remove U h c r).2 = UB).
Proof.
  intros H Hw. destruct (loc_in H h m Hw) as (a & p & cs & rowss & rows & El & Ha & Hp & Hrows & Hf & Hl).
  destruct (st_arch U _ _ _ _ _ (rv_st _ _ _ _ _ _ _ _ H) Ha) as (ar & Har & Hrep). cbn [fst snd] in Hrep.
  pose proof (ap_ms _ _ _ _ _ Hrep) as Hms. pose proof (ap_cs _ _ _ _ _ Hrep) as Ecs.
  unfold rg_remove. rewrite (bind_ok _ _ _ _ _ El). cbn [loc_of lc_arch lc_chunk lc_row fst snd default].
  rewrite (bind_ok _ _ _ _ _ (rg_arch_run _ _ _ Har)). rewrite (ar_contains_spec U _ _ _ _ c Hrep).
  destruct (decide (c ∈ cs)) as [Hcs|Hcs].
  2:{ rewrite bool_decide_false by done. left. exists r, hp. split; [done|]. split; [|apply keeps_refl].
      rewrite delete_notin, insert_id; [done|done|]. rewrite (full_elem _ _ _ c Hf) in Hcs.
      destruct (m !! c); [|done]. exfalso. eauto. }
  rewrite bool_decide_true by done.
  assert (is_Some (m !! c)) as Hsc by (by apply (full_elem _ _ _ c Hf)).
  pose proof (ms_erase_wf _ c Hms) as Hwf2. pose proof (ms_erase_metas _ c Hms) as Em2. rewrite Ecs in Em2.
  destruct (ensure_changed_spec s r hp (λ _, bs_set (ms_ids (ar_comps ar)) c false) (ms_erase (ar_comps ar) c))
    as (r1 & o1 & E1 & Ep1 & El1 & Ho1).
  { apply H. }
  { done. }
  { rewrite Em2, elem_of_list_filter. pose proof (si_ent _ _ _ _ (rv_st _ _ _ _ _ _ _ _ H) _ _ Ha). cbn [fst] in *.
    intros [_ ?]. done. }
  { apply canon_ext; [by apply set_false_canon, Hms|apply Hwf2|]. intros x.
    rewrite set_false_test, (mwf_test _ Hms), (mwf_test _ Hwf2), Em2, Ecs.
    destruct (decide (x = c)) as [->|Hn].
    - rewrite (bool_decide_true (c = c)) by done. symmetry. apply bool_decide_eq_false. rewrite elem_of_list_filter. by intros [? _].
    - rewrite (bool_decide_false (x = c)) by done. cbn [negb andb]. apply bool_decide_ext. rewrite elem_of_list_filter. tauto. }
  rewrite Em2 in Ho1. fold (rg_ensure_removed U ar c) in E1.
  destruct Ho1 as [(b & hp1 & cs2 & rowss2 & -> & He & Hst1 & Hb & Hss & Hnn)|(-> & Hg & Hst1)].
  2:{ right; left. rewrite (bind_throw _ _ _ _ _ E1). exists r1, cs. split; [done|]. split.
      - destruct H. split; rewrite ?Ep1, ?El1; done.
      - split; [done|]. split; [|split; [by rewrite (ap_max _ _ _ _ _ Hrep)|done]]. split.
        + rewrite <- Ecs. apply Hms.
        + intros x. by apply (full_elem _ h). }
  rewrite (bind_ok _ _ _ _ _ E1).
  assert (∀ x, x ∈ cs2 ↔ x ≠ c ∧ x ∈ cs) as Hss' by (intros x; rewrite (Hss x), elem_of_list_filter; done).
  assert (a ≠ b) as Hab.
  { intros ->. rewrite (hpe_lookup _ _ _ _ He Ha) in Hb. injection Hb as -> _. apply Hss' in Hcs as [? _]. done. }
  assert (restrict cs2 m = delete c m) as Eres.
  { apply map_eq. intros x. rewrite restrict_lookup. destruct (decide (x = c)) as [->|Hx].
    - rewrite lookup_delete, decide_False; [done|]. rewrite Hss'. tauto.
    - rewrite lookup_delete_ne by done. case_decide as E; [done|]. rewrite Hss', (full_elem _ _ _ x Hf) in E.
      destruct (m !! x); [|done]. exfalso. eauto. }
  destruct (relocate_spec s r1 hp1 w a p cs rowss rows b cs2 rowss2 h m Hst1) as
    [(r2 & q & moved & rowss' & rowss2' & E2 & Ep2 & Et2 & El2 & Hst2 & Hat & (l & E3 & Hwfl & Hlwl) & _ & Hfull & Hno)|[Hho Hub]].
  { eapply hpe_full; [done|apply H]. }
  { rewrite El1. apply H. }
  { rewrite El1. eapply lw_ext; [|apply H]. intros x. by rewrite (hpe_hrow _ _ x He). }
  { by eapply hpe_lookup. }
  { done. }
  { done. }
  { done. }
  { done. }
  - left. rewrite (bind_ok _ _ _ _ _ E2). cbn [fst snd]. rewrite Eres in Hat, Hlwl, Hfull.
    set (hp2 := <[b := (cs2, rowss2')]> (<[a := (cs, rowss')]> hp1)) in *.
    exists (rg_set_locs r2 l), hp2. split; [exact E3|]. split.
    + split.
      * by apply st_frame.
      * apply Hfull. apply full_of. intros x. rewrite Hss', (full_elem _ _ _ x Hf).
        rewrite lookup_delete_is_Some. naive_solver.
      * done.
      * done.
      * cbn [rg_set_locs rg_pool]. rewrite Ep2, Ep1. apply H.
      * intros g [x [[<- _]|[_ Hg]]%lookup_insert_Some]; apply (rv_live _ _ _ _ _ _ _ _ H); eauto.
    + split.
      * intros Hn1 Hn2. apply Hno; [by eapply hpe_nohole|by eapply hpe_le2].
      * intros Hn. specialize (Hnn Hn). unfold nonull in *. cbn [rg_set_locs rg_table]. by rewrite Et2.
  - right; right. split; [|split; [done|]].
    + destruct Hho as (k & x & p' & m' & rows' & Hk & Hx & Hx'). destruct (hpe_inv _ _ _ _ He Hk) as [?|E]; [by exists k, x, p', m', rows'|].
      rewrite E in Hx. apply at_Some in Hx as (l0 & Hl0 & Hx). apply list_lookup_singleton_Some in Hl0 as [_ <-]. done.
    + by apply bind_ub.
Qed.

(** get, has, visit *)
Lemma get_spec s n r iss dd pend hp w h m c : rinv s n r iss dd pend hp w → w !! h = Some m → c ≠ u_ent U →
  rg_get h c r = (r, match m !! c with Some v => Ok (CVal v) | None => Throw ComponentNotFound end).
Proof.
  intros H Hw Hent. destruct (loc_in H h m Hw) as (a & p & cs & rowss & rows & El & Ha & Hp & Hrows & Hf & Hl).
  destruct (st_arch U _ _ _ _ _ (rv_st _ _ _ _ _ _ _ _ H) Ha) as (ar & Har & Hrep). cbn [fst snd] in Hrep.
  unfold rg_get. rewrite (bind_ok _ _ _ _ _ El). cbn [loc_of lc_arch lc_chunk lc_row fst snd default].
  pose proof (ar_ref_spec U _ _ _ _ _ _ c Hrep Hp) as Er. destruct (m !! c) as [v|] eqn:Hc.
  - assert (c ∈ cs) as Hcs by (apply (full_elem _ _ _ c Hf); eauto). rewrite decide_True in Er by (by right).
    rewrite (bind_ok _ _ _ _ _ (on_arch_same _ _ _ _ _ Har Er)).
    apply (on_arch_same _ _ _ _ _ Har). by apply (ar_read_spec U _ _ _ _ _ (h, m) c v Hrep Hp Hcs Hc).
  - assert (c ∉ cs) as Hcs by (rewrite (full_elem _ _ _ c Hf), Hc; by intros [? ?]).
    rewrite decide_False in Er by set_solver.
    by rewrite (bind_throw _ _ _ _ _ (on_arch_same _ _ _ _ _ Har Er)).
Qed.

Lemma has_spec s n r iss dd pend hp w h m cs0 : rinv s n r iss dd pend hp w → w !! h = Some m →
  rg_has h cs0 r = (r, Ok (bool_decide (Forall (λ c, is_Some (m !! c)) cs0))).
Proof.
  intros H Hw. destruct (loc_in H h m Hw) as (a & p & cs & rowss & rows & El & Ha & Hp & Hrows & Hf & Hl).
  destruct (st_arch U _ _ _ _ _ (rv_st _ _ _ _ _ _ _ _ H) Ha) as (ar & Har & Hrep). cbn [fst snd] in Hrep.
  unfold rg_has. rewrite (bind_ok _ _ _ _ _ El). cbn [loc_of lc_arch lc_chunk lc_row fst snd default].
  rewrite (bind_ok _ _ _ _ _ (rg_arch_run _ _ _ Har)). unfold ret. do 2 f_equal.
  apply eq_bool_prop_intro. rewrite bool_decide_spec, forallb_True, !Forall_forall.
  split; intros Hc c Hin; specialize (Hc c Hin); rewrite (ar_contains_spec U _ _ _ _ c Hrep), bool_decide_spec,
    (full_elem _ _ _ c Hf) in *; done.
Qed.

Lemma visit_row_perm cs h m : lists cs m →
  visit_row cs (h, m) ≡ₚ (λ cv, (cv.1, CVal cv.2)) <$> map_to_list m.
Proof.
  intros [Hnd Hcs]. unfold visit_row. cbn [snd]. apply NoDup_Permutation.
  - clear Hcs. induction Hnd as [|c cs Hc Hnd IH]; [constructor|]. cbn. destruct (m !! c) as [v|]; [|done].
    constructor; [|done]. intros (x & Hx & E)%elem_of_list_omap. destruct (m !! x); [|done]. by injection E as -> _.
  - apply NoDup_fmap_2; [|apply NoDup_map_to_list]. intros [c v] [c' v'] [= -> ->]. done.
  - intros [c x]. rewrite elem_of_list_omap, elem_of_list_fmap. split.
    + intros (c' & Hc' & E). destruct (m !! c') as [v|] eqn:Em; [|done]. injection E as -> <-.
      exists (c, v). split; [done|]. by apply elem_of_map_to_list.
    + intros ([c' v] & [= -> ->] & Hv%elem_of_map_to_list). exists c'. rewrite Hv. split; [|done]. apply Hcs. eauto.
Qed.

Lemma visit_spec s n r iss dd pend hp w h m : rinv s n r iss dd pend hp w → w !! h = Some m →
  ∃ l, rg_visit h r = (r, Ok l) ∧ l ≡ₚ (λ cv, (cv.1, CVal cv.2)) <$> map_to_list m.
Proof.
  intros H Hw. destruct (loc_in H h m Hw) as (a & p & cs & rowss & rows & El & Ha & Hp & Hrows & Hf & Hl).
  destruct (st_arch U _ _ _ _ _ (rv_st _ _ _ _ _ _ _ _ H) Ha) as (ar & Har & Hrep). cbn [fst snd] in Hrep.
  unfold rg_visit. rewrite (bind_ok _ _ _ _ _ El). cbn [loc_of lc_arch lc_chunk lc_row fst snd default].
  rewrite (bind_ok _ _ _ _ _ (rg_arch_run _ _ _ Har)). rewrite (ar_visit_spec U _ _ _ _ _ _ Hrep Hp Hf).
  eexists. split; [done|]. apply visit_row_perm. split.
  - rewrite <- (ap_cs _ _ _ _ _ Hrep). apply Hrep.
  - intros c. by apply (full_elem _ h).
Qed.

(** Every operation on an entity that is not placed here throws and changes nothing. *)
Lemma out_specs s n r iss dd pend hp w h : rinv s n r iss dd pend hp w → w !! h = None →
  let e := if rg_alive r h then OutOfRange else EntityNotFound in
  rg_destroy U h r = (r, Throw e) ∧ (∀ c x, rg_set U h c x r = (r, Throw e)) ∧
  (∀ c x, rg_get_or_insert U h c x r = (r, Throw e)) ∧ (∀ c, rg_remove U h c r = (r, Throw e)) ∧
  (∀ c, rg_get h c r = (r, Throw e)) ∧ (∀ cs, rg_has h cs r = (r, Throw e)) ∧ rg_visit h r = (r, Throw e) ∧
  (∀ d ph, rg_copy_into U r h ph d = (d, Throw e)) ∧ (∀ d ph, rg_move_into U h ph (r, d) = ((r, d), Throw e)).
Proof.
  intros H Hw e. pose proof (loc_out H h Hw) as E. fold e in E.
  assert (∀ c, rg_set_impl U h c r = (r, Throw e)) as Ei by (intros c; by apply bind_throw).
  split; [by apply bind_throw|]. split; [intros c x; apply bind_throw, Ei|]. split; [intros c x; apply bind_throw, Ei|].
  split; [intros c; by apply bind_throw|]. split; [intros c; by apply bind_throw|]. split; [intros c; by apply bind_throw|].
  split; [by apply bind_throw|]. split.
  - intros d ph. apply bind_throw. by rewrite E.
  - intros d ph. apply bind_throw. unfold on_fst. cbn [fst snd]. by rewrite E.
Qed.

(** A row inserted for another handle and then given the handle [ph]. *)
Lemma inserted_put rowss q r rowss' r' : inserted rowss q r rowss' →
  inserted rowss q r' (alter (<[q.2 := r']>) q.1 rowss').
Proof.
  intros [Hn Hi]. split; [done|]. assert (at_ rowss' q = Some r) as Hq by (rewrite Hi; by rewrite decide_True).
  intros x. rewrite (at_put _ _ _ _ _ Hq). case_decide; [done|]. rewrite Hi. by rewrite decide_False.
Qed.

(** copy, clone *)
Lemma copy_into_spec s0 n0 r0 iss0 dd0 pend0 hp0 w0 s n r iss dd pend hp w h m ph :
  rinv s0 n0 r0 iss0 dd0 pend0 hp0 w0 → rinv s n r iss dd pend hp w → (sm_size (rg_locs r) + 1 < w32)%N →
  w0 !! h = Some m → w !! ph = None → ph ∈ iss → ph ∉ dd → ph ∉ pend →
  (if decide (map_Forall (λ c _, u_copyable U c = true) m) then
     ∃ r' hp', rg_copy_into U r0 h ph r = (r', Ok ph) ∧ rinv s n r' iss dd pend hp' (<[ph := m]> w) ∧ keeps r hp r' hp'
   else
     ∃ r' hp', rg_copy_into U r0 h ph r = (r', Throw InvalidArgument) ∧ rinv false n r' iss dd pend hp' w ∧
       (nonull r → nonull r')).
Proof.
  intros H0 H Hroom Hw0 Hw Hi1 Hi2 Hi3.
  destruct (loc_in H0 h m Hw0) as (a & p & cs & rowss & rows & El & Ha & Hp & Hrows & Hf & Hl).
  destruct (st_arch U _ _ _ _ _ (rv_st _ _ _ _ _ _ _ _ H0) Ha) as (ar & Har & Hrep). cbn [fst snd] in Hrep.
  pose proof (rv_full _ _ _ _ _ _ _ _ H0 _ _ Ha) as Hfs. cbn [fst snd] in Hfs.
  assert (∃ b r1 hp1 cs2 rowss2, rg_ensure U (ar_comps ar) r = (r1, Ok b) ∧ rg_pool r1 = rg_pool r ∧ rg_locs r1 = rg_locs r ∧
     hpe hp hp1 ∧ st_inv U s r1 hp1 ∧ hp1 !! b = Some (cs2, rowss2) ∧ same_set cs2 cs ∧ (nonull r → nonull r1))
    as (b & r1 & hp1 & cs2 & rowss2 & E1 & Ep1 & El1 & He & Hst1 & Hb & Hss & Hnn).
  { destruct (ensure_spec U HU s r hp (ms_ids (ar_comps ar)) (ar_comps ar)) as (r1 & o & E1 & Ep1 & El1 & Ho).
    - apply H.
    - apply Hrep.
    - rewrite (ap_cs _ _ _ _ _ Hrep). by apply (si_ent _ _ _ _ (rv_st _ _ _ _ _ _ _ _ H0) _ _ Ha).
    - done.
    - rewrite (ap_cs _ _ _ _ _ Hrep) in Ho.
      destruct Ho as [(b & hp1 & cs2 & rowss2 & -> & ?)|(_ & Hg & _)]; [by exists b, r1, hp1, cs2, rowss2|].
      exfalso. destruct (si_lay _ _ _ _ (rv_st _ _ _ _ _ _ _ _ H0) _ _ Ha) as [? Hy]. cbn [fst] in Hy. congruence. }
  destruct (st_arch U _ _ _ _ _ Hst1 Hb) as (br & Hbr & Hrep2). cbn [fst snd] in Hrep2.
  assert (rg_copy_into U r0 h ph r =
    (let! p0 := on_arch (Some b) (ar_copy U ar p.1 p.2) in
     on_arch (Some b) (ar_put_entity U p0.1 p0.2 ph) ;;!
     rg_set_location (h_id ph) (Loc (Some b) p0.1 p0.2) ;;! ret ph) r1) as ->.
  { unfold rg_copy_into. rewrite El. unfold bind at 1. cbn [snd loc_of lc_arch lc_chunk lc_row fst].
    cbn [mbind option_bind]. rewrite Har. unfold of_opt. rewrite (bind_ok _ _ _ _ _ (eq_refl : ret ar r = (r, Ok ar))).
    by rewrite (bind_ok _ _ _ _ _ E1). }
  assert (restrict cs2 m = m) as Eres.
  { apply restrict_all. intros x Hx. apply Hss. by apply (full_elem _ _ _ _ Hf). }
  case_decide as Hcp.
  - destruct (ar_copy_spec U HU s0 s ar cs rowss br cs2 rowss2 p (h, m) Hrep Hfs Hrep2 Hp) as (br' & rowss' & q & Ec & Hs & Hrep' & Hins & Hlen & Hnh).
    { intros c Hc _. apply (full_elem _ _ _ _ Hf) in Hc as [v Hv]. by apply (Hcp c v). }
    cbn [fst snd] in Hins. rewrite Eres in Hins.
    rewrite (bind_ok _ _ _ _ _ (on_arch_run _ _ _ _ _ _ Hbr Ec)).
    pose proof (st_put U _ _ _ _ _ _ _ _ _ Hst1 Hbr Hb Hs Hrep') as Hst2.
    set (r2 := rg_set_heap r1 (<[b := br']> (rg_heap r1))) in *. set (hp2 := <[b := (cs2, rowss')]> hp1) in *.
    assert (hp2 !! b = Some (cs2, rowss')) as Hb2 by (apply list_lookup_insert; by eapply lookup_lt_Some).
    assert (rg_heap r2 !! b = Some br') as Hbr2 by (apply list_lookup_insert; by eapply lookup_lt_Some).
    assert (at_ rowss' q = Some (h, m)) as Hq by (destruct Hins as [_ ->]; by rewrite decide_True).
    destruct (ar_put_entity_spec U s br' cs2 rowss' q (h, m) ph Hrep' Hq) as (br'' & Ee & Hs' & Hrep''). cbn [snd] in Hrep''.
    rewrite (bind_ok _ _ _ _ _ (on_arch_run _ _ _ _ _ _ Hbr2 Ee)).
    pose proof (st_put U _ _ _ _ _ _ _ _ _ Hst2 Hbr2 Hb2 Hs' Hrep'') as Hst3.
    unfold hp2 in Hst3. rewrite list_insert_insert in Hst3.
    pose proof (inserted_put _ _ _ _ (ph, m) Hins) as Hins'.
    destruct (place_spec s n r iss dd pend hp w (rg_set_heap r2 (<[b := br'']> (rg_heap r2))) hp1 b cs2 rowss2 q ph m
      (alter (<[q.2 := (ph, m)]>) q.1 rowss') H) as (r3 & E3 & H3 & Hk); try done.
    + apply full_of. intros x. rewrite (Hss x). by apply (full_elem _ h).
    + by rewrite hole_put.
    + rewrite (bind_ok _ _ _ _ _ E3). eauto.
  - assert (∃ c0, c0 ∈ cs ∧ u_copyable U c0 = false) as (c0 & Hc0 & Hn0).
    { apply map_not_Forall in Hcp as (c & v & Hv & Hc); [|apply _]. exists c. split.
      - apply (full_elem _ _ _ _ Hf). eauto.
      - by destruct (u_copyable U c). }
    destruct (ar_copy_fail U s0 s ar cs rowss br cs2 rowss2 p (h, m) c0 Hrep Hfs Hrep2 Hp Hc0 ltac:(by apply Hss) Hn0)
      as (br' & rowss' & Ec & Hs & Hrep' & Hat & Hrows').
    rewrite (bind_throw _ _ _ _ _ (on_arch_run _ _ _ _ _ _ Hbr Ec)).
    eexists _, (<[b := (cs2, rowss')]> hp1). split; [done|]. split; [|exact Hnn]. split.
    + eapply st_put; [by eapply st_weaken|done|done|done|done].
    + eapply full_put; [by eapply hpe_full, H|done|]. intros x rr Hx. rewrite Hat in Hx.
      by apply (hpe_full _ _ He (rv_full _ _ _ _ _ _ _ _ H) _ _ Hb x).
    + cbn [rg_set_heap rg_locs]. rewrite El1. apply H.
    + cbn [rg_set_heap rg_locs]. rewrite El1. eapply lw_ext; [|apply H]. intros x.
      rewrite <- (hpe_hrow _ _ x He). rewrite (hrow_put _ _ _ _ _ _ Hb). case_decide as Ex; [|done].
      unfold hrow. rewrite Ex, Hb. cbn [snd]. by rewrite Hat.
    + cbn [rg_set_heap rg_pool]. rewrite Ep1. apply H.
    + apply H.
Qed.

(** move between two registries *)
Lemma move_into_spec s0 n0 r0 iss0 dd0 hp0 w0 s n r iss dd pend hp w h m ph :
  rinv s0 n0 r0 iss0 dd0 [] hp0 w0 → rinv s n r iss dd pend hp w → (sm_size (rg_locs r) + 1 < w32)%N → below_wrap (S n0) →
  w0 !! h = Some m → w !! ph = None → ph ∈ iss → ph ∉ dd → ph ∉ pend →
  (∃ r0' r' hp0' hp', rg_move_into U h ph (r0, r) = ((r0', r'), Ok ph) ∧
     rinv s0 (S n0) r0' iss0 (h :: dd0) [] hp0' (delete h w0) ∧ keeps r0 hp0 r0' hp0' ∧
     rinv s n r' iss dd pend hp' (<[ph := m]> w) ∧ keeps r hp r' hp') ∨
  (trap hp0 h ∧ (rg_move_into U h ph (r0, r)).2 = UB).
Proof.
  intros H0 H Hroom Hbw Hw0 Hw Hi1 Hi2 Hi3.
  destruct (loc_in H0 h m Hw0) as (a & p & cs & rowss & rows & El & Ha & Hp & Hrows & Hf & Hl).
  destruct (st_arch U _ _ _ _ _ (rv_st _ _ _ _ _ _ _ _ H0) Ha) as (ar & Har & Hrep). cbn [fst snd] in Hrep.
  pose proof (rv_full _ _ _ _ _ _ _ _ H0 _ _ Ha) as Hfs. cbn [fst snd] in Hfs.
  assert (∃ b r1 hp1 cs2 rowss2, rg_ensure U (ar_comps ar) r = (r1, Ok b) ∧ rg_pool r1 = rg_pool r ∧ rg_locs r1 = rg_locs r ∧
     hpe hp hp1 ∧ st_inv U s r1 hp1 ∧ hp1 !! b = Some (cs2, rowss2) ∧ same_set cs2 cs ∧ (nonull r → nonull r1))
    as (b & r1 & hp1 & cs2 & rowss2 & E1 & Ep1 & El1 & He & Hst1 & Hb & Hss & Hnn).
  { destruct (ensure_spec U HU s r hp (ms_ids (ar_comps ar)) (ar_comps ar)) as (r1 & o & E1 & Ep1 & El1 & Ho).
    - apply H.
    - apply Hrep.
    - rewrite (ap_cs _ _ _ _ _ Hrep). by apply (si_ent _ _ _ _ (rv_st _ _ _ _ _ _ _ _ H0) _ _ Ha).
    - done.
    - rewrite (ap_cs _ _ _ _ _ Hrep) in Ho.
      destruct Ho as [(b & hp1 & cs2 & rowss2 & -> & ?)|(_ & Hg & _)]; [by exists b, r1, hp1, cs2, rowss2|].
      exfalso. destruct (si_lay _ _ _ _ (rv_st _ _ _ _ _ _ _ _ H0) _ _ Ha) as [? Hy]. cbn [fst] in Hy. congruence. }
  destruct (st_arch U _ _ _ _ _ Hst1 Hb) as (br & Hbr & Hrep2). cbn [fst snd] in Hrep2.
  assert (restrict cs2 m = m) as Eres.
  { apply restrict_all. intros x Hx. apply Hss. by apply (full_elem _ _ _ _ Hf). }
  unfold rg_move_into.
  rewrite (bind_ok (on_fst (rg_location h)) _ (r0, r) (r0, r) (loc_of (a, p))) by (unfold on_fst; cbn [fst snd]; by rewrite El).
  cbn [loc_of lc_arch lc_chunk lc_row fst snd].
  rewrite (bind_ok (on_fst (rg_arch (Some a))) _ (r0, r) (r0, r) ar) by (unfold on_fst; cbn [fst snd]; by rewrite (rg_arch_run _ _ _ Har)).
  rewrite (bind_ok (on_snd (rg_ensure U (ar_comps ar))) _ (r0, r) (r0, r1) b) by (unfold on_snd; cbn [fst snd]; by rewrite E1).
  pose proof (ar_move_spec U HU s0 s ar cs rowss br cs2 rowss2 p (h, m) rows Hrep Hfs Hrep2 Hp Hrows) as Hmv.
  case_decide as Hc.
  2:{ right. split.
      - by exists a, (cs, rowss), p, m, rows.
      - apply bind_ub. cbn [fst snd]. rewrite Har, Hbr. by destruct (ar_move U p.1 p.2 (ar, br)) as [[? ?] ?]. }
  left. destruct Hmv as (ar' & br' & rowss' & rowss2' & moved & q & Em & Hs1 & Hs2 & Hr1 & Hr2 & Her & Hins & _ & Hh1 & _ & Hh2).
  cbn [fst snd] in Hins. rewrite Eres in Hins.
  set (r0a := rg_set_heap r0 (<[a := ar']> (rg_heap r0))). set (r2 := rg_set_heap r1 (<[b := br']> (rg_heap r1))).
  match goal with |- context [bind ?f ?k (r0, r1)] =>
    rewrite (bind_ok f k (r0, r1) (r0a, r2) (q, moved)) by (cbn [fst snd]; by rewrite Har, Hbr, Em) end.
  cbn [fst snd].
  (* source *)
  pose proof (st_put U _ _ _ _ _ _ _ _ _ (rv_st _ _ _ _ _ _ _ _ H0) Har Ha Hs1 Hr1) as Hst0. fold r0a in Hst0.
  destruct (lw_erased _ _ _ _ _ _ _ _ _ _ _ Ha Hp Her (rv_lw _ _ _ _ _ _ _ _ H0)) as [Hlw0 Hmv].
  destruct (remove_loc_spec r0a (h_id h) (loc_of (a, p))) as (l1 & El1' & Hwf1 & Habs1); [apply H0|done|].
  rewrite (bind_ok (on_fst (rg_remove_location (h_id h))) _ (r0a, r2) (rg_set_locs r0a l1, r2) tt)
    by (unfold on_fst; cbn [fst snd]; by rewrite El1').
  assert (∃ l2, (match moved with
      | Some g => if decide (g = h) then ret tt else on_fst (rg_set_location (h_id g) (loc_of (a, p)))
      | None => ret tt end) (rg_set_locs r0a l1, r2) = ((rg_set_locs r0a l2, r2), Ok tt) ∧ sm_wf w32 l2 ∧
      sm_abs l2 = match moved with Some g => <[h_id g := loc_of (a, p)]> (delete (h_id h) (sm_abs (rg_locs r0)))
        | None => delete (h_id h) (sm_abs (rg_locs r0)) end) as (l2 & E2 & Hwf2 & Habs2).
  { destruct moved as [g|].
    - destruct Hmv as [Hne Hg]. rewrite decide_False by congruence.
      destruct (set_loc_spec (rg_set_locs r0a l1) (h_id g) (loc_of (a, p))) as (l2 & E2 & ? & Habs2).
      + done.
      + left. cbn [rg_set_locs rg_locs]. rewrite Habs1. by rewrite lookup_delete_ne.
      + exists l2. split; [unfold on_fst; cbn [fst snd]; by rewrite E2|]. split; [done|]. rewrite Habs2.
        cbn [rg_set_locs rg_locs]. by rewrite Habs1.
    - by exists l1. }
  rewrite (bind_ok _ _ _ _ _ E2).
  set (r0b := rg_set_pool (rg_set_locs r0a l2) (pool_recycle (rg_pool r0) h)).
  rewrite (bind_ok (on_fst (rg_recycle h)) _ _ (r0b, r2) tt) by done.
  (* destination *)
  pose proof (st_put U _ _ _ _ _ _ _ _ _ Hst1 Hbr Hb Hs2 Hr2) as Hst2. fold r2 in Hst2.
  set (hp2 := <[b := (cs2, rowss2')]> hp1) in *.
  assert (hp2 !! b = Some (cs2, rowss2')) as Hb2 by (apply list_lookup_insert; by eapply lookup_lt_Some).
  assert (rg_heap r2 !! b = Some br') as Hbr2 by (apply list_lookup_insert; by eapply lookup_lt_Some).
  assert (at_ rowss2' q = Some (h, m)) as Hq by (destruct Hins as [_ ->]; by rewrite decide_True).
  destruct (ar_put_entity_spec U s br' cs2 rowss2' q (h, m) ph Hr2 Hq) as (br'' & Ee & Hs' & Hrep''). cbn [snd] in Hrep''.
  set (r3 := rg_set_heap r2 (<[b := br'']> (rg_heap r2))).
  rewrite (bind_ok (on_snd (on_arch (Some b) (ar_put_entity U q.1 q.2 ph))) _ (r0b, r2) (r0b, r3) tt)
    by (unfold on_snd; cbn [fst snd]; by rewrite (on_arch_run _ _ _ _ _ _ Hbr2 Ee)).
  pose proof (st_put U _ _ _ _ _ _ _ _ _ Hst2 Hbr2 Hb2 Hs' Hrep'') as Hst3.
  unfold hp2 in Hst3. rewrite list_insert_insert in Hst3. fold r3 in Hst3.
  pose proof (inserted_put _ _ _ _ (ph, m) Hins) as Hins'.
  destruct (place_spec s n r iss dd pend hp w r3 hp1 b cs2 rowss2 q ph m
    (alter (<[q.2 := (ph, m)]>) q.1 rowss2') H) as (r4 & E4 & H4 & Hk4); try done.
  { apply full_of. intros x. rewrite (Hss x). by apply (full_elem _ h). }
  { by rewrite hole_put. }
  rewrite (bind_ok (on_snd (rg_set_location (h_id ph) (Loc (Some b) q.1 q.2))) _ (r0b, r3) (r0b, r4) tt)
    by (unfold on_snd; cbn [fst snd]; by rewrite E4).
  eexists r0b, r4, (<[a := (cs, rowss')]> hp0), _. split; [done|]. split; [|split; [|split; [exact H4|exact Hk4]]].
  - split; unfold r0b; cbn [rg_set_pool rg_set_locs rg_locs rg_pool].
    + by apply (st_frame U _ _ _ _ _ _ Hst0).
    + eapply full_put; [apply H0|done|]. by eapply erased_full.
    + done.
    + rewrite Habs2. done.
    + apply hinv_recycle; [apply H0|done|]. by apply (rv_live _ _ _ _ _ _ _ _ H0); eauto.
    + intros g Hg. apply lookup_delete_is_Some in Hg as [Hne Hg].
      destruct (rv_live _ _ _ _ _ _ _ _ H0 g Hg) as (? & ? & ?). split; [done|]. split; [|done]. set_solver.
  - split; [|done]. intros Hno Hle. apply nohole_put; [done|]. cbn [snd]. apply Hh1. by apply (Hle _ _ Ha).
Qed.

(** reserve and sync *)
Lemma reserve_spec s n r iss dd pend hp w : rinv s n r iss dd pend hp w → below_wrap (S (S n)) →
  ∃ r' h, rg_reserve r = (r', Ok h) ∧ rinv s (S (S n)) r' (h :: iss) dd (h :: pend) hp w ∧ h ∉ iss ∧ keeps r hp r' hp.
Proof.
  intros H Hw. unfold rg_reserve, pool_reserve. destruct (reserve_ticket (rg_pool r)) as [k p1] eqn:E1.
  pose proof (hinv_enter n (rg_pool r) iss dd pend [] 0 k p1 (rv_pool _ _ _ _ _ _ _ _ H) (not_elem_of_nil _) E1) as Hi1.
  destruct (reserve_finish k p1) as [p2 o] eqn:E2. destruct o as [h|e|].
  2:{ exfalso. unfold reserve_finish in E2. destruct (decide (0 < k)%Z); [|done].
      repeat match type of E2 with context [match ?x with _ => _ end] => destruct x end; done. }
  2:{ exfalso. eapply (finish_no_ub _ _ 0 k p2 Hi1); [cbn; set_solver|done]. }
  pose proof (hinv_leave (S n) p1 iss dd pend [] [] 0 k p2 h Hi1 Hw E2) as Hi2. cbn [app] in Hi2.
  pose proof (hi_iss_nd _ _ Hi2) as Hnd. cbn [hs_issued] in Hnd. apply NoDup_cons in Hnd as [Hh _].
  exists (rg_set_pool r p2), h. split; [done|]. split; [|by split].
  destruct H. split; try done.
  - by apply st_frame.
  - intros g Hg. destruct (rv_live0 g Hg) as (? & ? & ?). split; [by right|]. split; [done|].
    intros [->|?]%elem_of_cons; done.
Qed.

Lemma sync_spec s n r iss dd pend hp w : rinv s n r iss dd pend hp w →
  ∃ r', rg_sync r = (r', Ok tt) ∧ rinv s (S n) r' iss dd [] hp w ∧ keeps r hp r' hp.
Proof.
  intros H. eexists. split; [done|]. split; [|by split]. pose proof (hinv_flush _ _ _ _ _ (rv_pool _ _ _ _ _ _ _ _ H)).
  destruct H. split; try done.
  - by apply st_frame.
  - intros g Hg. destruct (rv_live0 g Hg) as (? & ? & ?). split; [done|]. split; [done|]. apply not_elem_of_nil.
Qed.

(** The destructor: every object is destroyed, unless some leaked before. *)
Lemma destruct_spec s n r iss dd pend hp w : rinv s n r iss dd pend hp w →
  ∃ k, rg_destruct r = Ok k ∧ (s = true → k = 0).
Proof.
  intros H. unfold rg_destruct.
  assert (∀ l, (∀ key a, (key, Some a) ∈ l → is_Some (rg_heap r !! a)) →
    ∃ k, heap_destruct (rg_heap r) l = Ok k ∧ (s = true → k = 0)) as Hl.
  { induction l as [|[key [a|]] l IH]; intros Hin.
    - by exists 0.
    - destruct IH as (k & E & Hk). { intros; eapply Hin; by right. }
      destruct (Hin key a) as [ar Har]; [by left|].
      destruct (Forall2_lookup_l _ _ _ _ _ (si_heap _ _ _ _ (rv_st _ _ _ _ _ _ _ _ H)) Har) as ([cs rowss] & Hx & Hrep).
      cbn [fst snd] in Hrep.
      destruct (ar_destruct_spec U s ar cs rowss Hrep (rv_full _ _ _ _ _ _ _ _ H _ _ Hx)) as (k2 & E2 & Hk2).
      cbn [heap_destruct]. rewrite Har, E2, E. exists (k2 + k). split; [done|]. intros Hs. rewrite Hk, Hk2; done.
    - apply IH. intros; eapply Hin; by right. }
  apply Hl. intros key a Hin. rewrite (iter_perm bs_hash) in Hin by apply H. apply elem_of_map_to_list in Hin.
  destruct (si_t1 _ _ _ _ (rv_st _ _ _ _ _ _ _ _ H) _ _ Hin) as (ar & Har & _). eauto.
Qed.
End registry.
