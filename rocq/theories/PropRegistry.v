(** C05-C13, C23-C25: the operations of the registry. *)
From Verif Require Import Base Bits Layout PropLayout HandlePool HandleSpec HandlePoolProofs SparseMap SparseMapProofs
  HashTable HashTableProofs HashTableMap Bitset BitsetProofs ComponentSet ComponentSetProofs
  Chunk ChunkProofs Archetype ArchetypeProofs Registry RegistryStore RegistryProofs View ViewProofs RegSpec RegSpecProofs
  RegObs RegRun.

Lemma mapM_ok {S A B} (f : A → B) (m : M S A) s s' y : mapM f m s = (s', Ok y) → ∃ x, m s = (s', Ok x) ∧ y = f x.
Proof. unfold mapM. destruct (m s) as [s1 [x|e|]]; cbn; intros [= -> <-]; eauto. Qed.
Lemma mapM_throw {S A B} (f : A → B) (m : M S A) s s' e : mapM f m s = (s', Throw e) → m s = (s', Throw e).
Proof. unfold mapM. destruct (m s) as [s1 [x|e'|]]; cbn; by intros [= -> ->]. Qed.

Section props.
Context (U : universe).
Hypothesis HU : u_wf U.

(** [others_same] from the records. *)
Lemma others_from s h r r' s' : shows U r s → shows U r' s' →
  (∀ g, g ∈ sr_issued s → g ∉ sr_pending s → g ≠ h →
     g ∈ sr_issued s' ∧ g ∉ sr_pending s' ∧ sr_world s' !! g = sr_world s !! g ∧ (g ∈ sr_dead s' ↔ g ∈ sr_dead s)) →
  others_same U s h r r'.
Proof. intros H1 H2 H g Hi Hp Hg. destruct (H g Hi Hp Hg) as (? & ? & ? & ?). by eapply same_obs_from. Qed.

Lemma all_from s r r' s' : shows U r s → shows U r' s' →
  (∀ g, g ∈ sr_issued s → g ∉ sr_pending s → 
     g ∈ sr_issued s' ∧ g ∉ sr_pending s' ∧ sr_world s' !! g = sr_world s !! g ∧ (g ∈ sr_dead s' ↔ g ∈ sr_dead s)) →
  size (sr_world s') = size (sr_world s) → all_same U s r r'.
Proof.
  intros H1 H2 H Hs. split; [|by rewrite (sh_size _ _ _ H1), (sh_size _ _ _ H2), Hs].
  intros g Hi Hp. destruct (H g Hi Hp) as (? & ? & ? & ?). by eapply same_obs_from.
Qed.

Lemma world_live n r s h m : reached U n r s → below_wrap (2 * n) → sr_world s !! h = Some m →
  h ∈ sr_issued s ∧ h ∉ sr_dead s ∧ h ∉ sr_pending s.
Proof.
  intros Hr Hbw Hw. destruct (reached_ri U HU _ _ _ Hr Hbw) as (iss & hp & [_ Hri _]).
  destruct (rv_live _ _ _ _ _ _ _ _ _ Hri h) as (_ & ? & ?); [eauto|]. split; [|done].
  destruct (reached_swf U HU _ _ _ Hr) as [Hd _]. apply Hd; eauto.
Qed.

(** C05 *)
Theorem C05_create n r s args : reached U n r s → below_wrap (2 * S n) → sr_pending s = [] →
  NoDup args.*1 → u_ent U ∉ args.*1 → get_max_size (u_type U <$> args.*1) ≠ None →
  ∃ r' h, rg_create U args r = (r', Ok h) ∧ h ∉ sr_issued s ∧ rg_alive r' h = true ∧
    (∀ c v, (c, v) ∈ args → (rg_get h c r').2 = Ok (CVal v)) ∧
    (∀ c, c ≠ u_ent U → c ∉ args.*1 → (rg_get h c r').2 = Throw ComponentNotFound) ∧
    (∀ cs, (rg_has h cs r').2 = Ok true ↔ ∀ c, c ∈ cs → c ∈ args.*1) ∧
    rg_size r' = (rg_size r + 1)%N ∧ (∀ g, g ∈ sr_issued s → same_obs U r r' g).
Proof.
  intros Hr Hbw Hp Hnd Hent Hg. destruct (run_rop U (OCreate args) r) as [r' o] eqn:E.
  destruct (reached_step U HU _ _ _ (OCreate args) _ _ Hr Hbw (conj Hp (conj Hnd Hent)) E) as [(s' & Hn & Hr' & _)|[_ []]].
  destruct Hn as [(h & Hh & -> & ->)|(_ & ? & _)]; [|done].
  apply mapM_ok in E as (h' & E & [= <-]). exists r', h. split; [done|]. split; [done|].
  pose proof (reached_shows U HU _ _ _ Hr (bw_half _ Hbw)) as Hs. pose proof (reached_shows U HU _ _ _ Hr' Hbw) as Hs'.
  pose proof (reached_swf U HU _ _ _ Hr) as (W1 & W2 & W3).
  assert (h ∈ sr_issued (with_world (issue s h) (<[h := list_to_map args]> (sr_world s)))) as Hi by (cbn; by left).
  assert (h ∉ sr_pending (with_world (issue s h) (<[h := list_to_map args]> (sr_world s)))) as Hpd by (cbn; rewrite Hp; apply not_elem_of_nil).
  assert (∀ c, (rg_get h c r').2 = match (list_to_map args : gmap cid val) !! c with Some v => Ok (CVal v) | None => Throw ComponentNotFound end ∨ c = u_ent U) as Hget.
  { intros c. destruct (decide (c = u_ent U)) as [->|Hc]; [by right|left]. rewrite (sh_get _ _ _ Hs' h c Hi Hpd Hc). unfold a_get. cbn. by rewrite lookup_insert. }
  split; [|split; [|split; [|split; [|split]]]].
  - rewrite (sh_alive _ _ _ Hs' h Hi Hpd). unfold a_alive. apply bool_decide_eq_true. cbn. intros Hd. by apply Hh, W2.
  - intros c v Hin. destruct (Hget c) as [->| ->]; [by rewrite (elem_of_list_to_map_1 _ _ _ Hnd Hin)|].
    destruct Hent. apply elem_of_list_fmap. by exists (u_ent U, v).
  - intros c Hc Hn. destruct (Hget c) as [->|?]; [|done]. by rewrite (not_elem_of_list_to_map_1 args c Hn).
  - intros cs. rewrite (sh_has _ _ _ Hs' h cs Hi Hpd). unfold a_has. cbn [snd sr_world with_world]. rewrite lookup_insert.
    split.
    + intros [= HF%bool_decide_eq_true] c Hc. rewrite Forall_forall in HF. destruct (HF c Hc) as [v Hv].
      apply elem_of_list_to_map_2 in Hv. apply elem_of_list_fmap. by exists (c, v).
    + intros HF. f_equal. apply bool_decide_eq_true, Forall_forall. intros c Hc. apply HF in Hc.
      apply elem_of_list_fmap in Hc as ([c' v] & -> & Hin). exists v. by apply elem_of_list_to_map_1.
  - rewrite (sh_size _ _ _ Hs), (sh_size _ _ _ Hs'). cbn. rewrite map_size_insert_None; [lia|].
    destruct (sr_world s !! h) eqn:Ew; [|done]. destruct Hh. eauto.
  - intros g Hgi. assert (g ≠ h) by (intros ->; done). eapply same_obs_from; [exact Hs|exact Hs'|..]; cbn; rewrite ?Hp; try done.
    + apply not_elem_of_nil.
    + by right.
    + apply not_elem_of_nil.
    + by rewrite lookup_insert_ne.
Qed.

(** C06 *)
Theorem C06_destroy n r s h : reached U n r s → below_wrap (2 * S n) → sr_pending s = [] →
  is_Some (sr_world s !! h) → ¬ trapped r h →
  ∃ r', rg_destroy U h r = (r', Ok tt) ∧ rg_alive r h = true ∧ rg_alive r' h = false ∧
    (∀ c, c ≠ u_ent U → (rg_get h c r').2 = Throw EntityNotFound) ∧
    (rg_size r' + 1)%N = rg_size r ∧ others_same U s h r r'.
Proof.
  intros Hr Hbw Hp [m Hm] Hhf. destruct (world_live _ _ _ _ _ Hr (bw_half _ Hbw) Hm) as (Hi & Hd & Hpd).
  destruct (run_rop U (ODestroy h) r) as [r' o] eqn:E.
  destruct (reached_step U HU _ _ _ (ODestroy h) _ _ Hr Hbw Hp E) as [(s' & Hn & Hr' & _)|[_ [? _]]]; [|done].
  cbn in Hn. rewrite Hm in Hn. destruct Hn as [-> ->].
  apply mapM_ok in E as ([] & E & _). exists r'. split; [done|].
  pose proof (reached_shows U HU _ _ _ Hr (bw_half _ Hbw)) as Hs. pose proof (reached_shows U HU _ _ _ Hr' Hbw) as Hs'.
  split; [|split; [|split; [|split]]].
  - rewrite (sh_alive _ _ _ Hs) by done. by apply bool_decide_eq_true.
  - rewrite (sh_alive _ _ _ Hs') by done. apply bool_decide_eq_false. intros Hx. apply Hx. cbn. by left.
  - intros c Hc. rewrite (sh_get _ _ _ Hs') by done. unfold a_get, a_miss. cbn. rewrite lookup_delete, decide_True; [done|by left].
  - rewrite (sh_size _ _ _ Hs), (sh_size _ _ _ Hs'). cbn. rewrite map_size_delete, Hm. cbn.
    destruct (size (sr_world s)) eqn:Ez; [|lia]. apply map_size_empty_inv in Ez. by rewrite Ez, lookup_empty in Hm.
  - eapply others_from; [done|done|]. intros g Hgi Hgp Hgh. cbn. rewrite lookup_delete_ne by done. split; [done|]. split; [done|]. split; [done|]. set_solver.
Qed.

(** A component map of one entity replaced: what set, get_or_insert and remove have in common. *)
Lemma replaced s h m m' r r' : shows U r s → shows U r' (with_world s (<[h := m']> (sr_world s))) →
  sr_world s !! h = Some m → h ∈ sr_issued s → h ∉ sr_dead s → h ∉ sr_pending s →
  rg_alive r' h = true ∧
  (∀ c, c ≠ u_ent U → (rg_get h c r').2 = match m' !! c with Some v => Ok (CVal v) | None => Throw ComponentNotFound end) ∧
  (∀ c, c ≠ u_ent U → m' !! c = m !! c → (rg_get h c r').2 = (rg_get h c r).2) ∧
  rg_size r' = rg_size r ∧ others_same U s h r r'.
Proof.
  intros Hs Hs' Hm Hi Hd Hp.
  assert (∀ c, c ≠ u_ent U → (rg_get h c r').2 = match m' !! c with Some v => Ok (CVal v) | None => Throw ComponentNotFound end) as Hg.
  { intros c Hc. rewrite (sh_get _ _ _ Hs') by done. unfold a_get. cbn. by rewrite lookup_insert. }
  split; [|split; [|split; [|split]]].
  - rewrite (sh_alive _ _ _ Hs') by done. by apply bool_decide_eq_true.
  - done.
  - intros c Hc E. rewrite Hg, (sh_get _ _ _ Hs) by done. unfold a_get. cbn. by rewrite Hm, E.
  - rewrite (sh_size _ _ _ Hs), (sh_size _ _ _ Hs'). cbn. by rewrite map_size_insert_Some.
  - eapply others_from; [done|done|]. intros g Hgi Hgp Hgh. cbn. by rewrite lookup_insert_ne.
Qed.

(** C07 *)
Theorem C07_set n r s h m c v : reached U n r s → below_wrap (2 * S n) → sr_world s !! h = Some m → c ≠ u_ent U →
  is_Some (m !! c) ∨ ¬ trapped r h ∧ ¬ refused U (<[c := v]> m) →
  ∃ r', rg_set U h c (CtorOk v) r = (r', Ok tt) ∧ rg_alive r' h = true ∧
    (rg_get h c r').2 = Ok (CVal v) ∧
    (∀ c', c' ≠ u_ent U → c' ≠ c → (rg_get h c' r').2 = (rg_get h c' r).2) ∧
    rg_size r' = rg_size r ∧ others_same U s h r r'.
Proof.
  intros Hr Hbw Hm Hc Hok. destruct (world_live _ _ _ _ _ Hr (bw_half _ Hbw) Hm) as (Hi & Hd & Hpd).
  destruct (run_rop U (OSet h c (CtorOk v)) r) as [r' o] eqn:E.
  assert (permitted U s (OSet h c (CtorOk v))) as Hper by done.
  destruct (reached_step U HU _ _ _ (OSet h c (CtorOk v)) _ _ Hr Hbw Hper E) as [(s' & Hn & Hr' & _)|[_ (Hh & m0 & Hm0 & Hc0)]].
  2:{ rewrite Hm in Hm0. injection Hm0 as <-. destruct Hok as [[? ?]|[? _]]; congruence. }
  cbn in Hn. rewrite Hm in Hn. destruct Hn as [[-> ->]|(_ & Hc0 & Href & _)].
  2:{ destruct Hok as [[? ?]|[_ ?]]; [congruence|done]. }
  apply mapM_ok in E as ([] & E & _). exists r'. split; [done|].
  pose proof (reached_shows U HU _ _ _ Hr (bw_half _ Hbw)) as Hs. pose proof (reached_shows U HU _ _ _ Hr' Hbw) as Hs'.
  destruct (replaced s h m _ r r' Hs Hs' Hm Hi Hd Hpd) as (H1 & H2 & H3 & H4 & H5). split; [done|]. split; [|split; [|done]].
  - rewrite H2 by done. by rewrite lookup_insert.
  - intros c' Hc' Hne. apply H3; [done|]. by rewrite lookup_insert_ne.
Qed.

(** C08 *)
Theorem C08_remove n r s h m c : reached U n r s → below_wrap (2 * S n) → sr_world s !! h = Some m → c ≠ u_ent U →
  m !! c = None ∨ ¬ trapped r h ∧ ¬ refused U (delete c m) →
  ∃ r', rg_remove U h c r = (r', Ok tt) ∧ rg_alive r' h = true ∧
    (rg_get h c r').2 = Throw ComponentNotFound ∧
    (∀ c', c' ≠ u_ent U → c' ≠ c → (rg_get h c' r').2 = (rg_get h c' r).2) ∧
    rg_size r' = rg_size r ∧ others_same U s h r r' ∧
    (m !! c = None → all_same U s r r').
Proof.
  intros Hr Hbw Hm Hc Hok. destruct (world_live _ _ _ _ _ Hr (bw_half _ Hbw) Hm) as (Hi & Hd & Hpd).
  destruct (run_rop U (ORemove h c) r) as [r' o] eqn:E.
  assert (permitted U s (ORemove h c)) as Hper by done.
  destruct (reached_step U HU _ _ _ (ORemove h c) _ _ Hr Hbw Hper E) as [(s' & Hn & Hr' & _)|[_ (Hh & m0 & Hm0 & Hc0)]].
  2:{ rewrite Hm in Hm0. injection Hm0 as <-. destruct Hc0, Hok as [?|[? _]]; congruence. }
  cbn in Hn. rewrite Hm in Hn. destruct Hn as [[-> ->]|(_ & Hc0 & Href & _)].
  2:{ destruct Hc0, Hok as [?|[_ ?]]; [congruence|done]. }
  apply mapM_ok in E as ([] & E & _). exists r'. split; [done|].
  pose proof (reached_shows U HU _ _ _ Hr (bw_half _ Hbw)) as Hs. pose proof (reached_shows U HU _ _ _ Hr' Hbw) as Hs'.
  destruct (replaced s h m _ r r' Hs Hs' Hm Hi Hd Hpd) as (H1 & H2 & H3 & H4 & H5). split; [done|]. split; [|split; [|split; [done|split; [done|]]]].
  - rewrite H2 by done. by rewrite lookup_delete.
  - intros c' Hc' Hne. apply H3; [done|]. by rewrite lookup_delete_ne.
  - intros Hc0. eapply all_from; [done|done| |]; cbn; [|by rewrite map_size_insert_Some].
    intros g Hgi Hgp. split; [done|]. split; [done|]. split; [|done]. rewrite delete_notin by done. by rewrite insert_id.
Qed.

(** C09 *)
Theorem C09_get_or_insert n r s h m c v : reached U n r s → below_wrap (2 * S n) → sr_world s !! h = Some m → c ≠ u_ent U →
  is_Some (m !! c) ∨ ¬ trapped r h ∧ ¬ refused U (<[c := v]> m) →
  ∃ r', let v' := match m !! c with Some v0 => v0 | None => v end in
    rg_get_or_insert U h c (CtorOk v) r = (r', Ok (CVal v')) ∧ rg_alive r' h = true ∧
    (rg_get h c r').2 = Ok (CVal v') ∧
    (∀ c', c' ≠ u_ent U → c' ≠ c → (rg_get h c' r').2 = (rg_get h c' r).2) ∧
    rg_size r' = rg_size r ∧ others_same U s h r r' ∧
    (is_Some (m !! c) → all_same U s r r').
Proof.
  intros Hr Hbw Hm Hc Hok. destruct (world_live _ _ _ _ _ Hr (bw_half _ Hbw) Hm) as (Hi & Hd & Hpd).
  destruct (run_rop U (OGetOrInsert h c (CtorOk v)) r) as [r' o] eqn:E.
  assert (permitted U s (OGetOrInsert h c (CtorOk v))) as Hper by done.
  destruct (reached_step U HU _ _ _ (OGetOrInsert h c (CtorOk v)) _ _ Hr Hbw Hper E) as [(s' & Hn & Hr' & _)|[_ (Hh & m0 & Hm0 & Hc0)]].
  2:{ rewrite Hm in Hm0. injection Hm0 as <-. destruct Hok as [[? ?]|[? _]]; congruence. }
  pose proof (reached_shows U HU _ _ _ Hr (bw_half _ Hbw)) as Hs. pose proof (reached_shows U HU _ _ _ Hr' Hbw) as Hs'.
  cbn [rnext] in Hn. rewrite Hm in Hn. destruct (m !! c) as [v0|] eqn:Hmc.
  - destruct Hn as [-> ->]. apply mapM_ok in E as (x & E & [= <-]). exists r'. cbv zeta. split; [done|].
    assert (all_same U s r r') as Hall by (by eapply all_from).
    assert (with_world s (<[h := m]> (sr_world s)) = s) as Es by (unfold with_world; rewrite insert_id by done; by destruct s).
    destruct (replaced s h m m r r' Hs ltac:(by rewrite Es) Hm Hi Hd Hpd) as (H1 & H2 & H3 & H4 & H5).
    split; [done|]. split; [rewrite H2 by done; by rewrite Hmc|]. split; [auto|]. done.
  - destruct Hn as [[-> ->]|(_ & Href & _)]; [|destruct Hok as [[? ?]|[_ ?]]; [congruence|done]].
    apply mapM_ok in E as (x & E & [= <-]). exists r'. cbv zeta. split; [done|].
    destruct (replaced s h m _ r r' Hs Hs' Hm Hi Hd Hpd) as (H1 & H2 & H3 & H4 & H5). split; [done|]. split; [|split; [|split; [done|split; [done|by intros []]]]].
    + rewrite H2 by done. by rewrite lookup_insert.
    + intros c' Hc' Hne. apply H3; [done|]. by rewrite lookup_insert_ne.
Qed.

(** C10: get and has change nothing, and report what the abstract machine has. *)
Theorem C10_get_has n r s h m : reached U n r s → below_wrap (2 * n) → sr_world s !! h = Some m →
  (∀ c, c ≠ u_ent U → rg_get h c r = (r, match m !! c with Some v => Ok (CVal v) | None => Throw ComponentNotFound end)) ∧
  (∀ cs, rg_has h cs r = (r, Ok (bool_decide (Forall (λ c, is_Some (m !! c)) cs)))) ∧
  (∀ c, c ≠ u_ent U → (rg_get h c r).2 = Throw ComponentNotFound ↔ (rg_has h [c] r).2 = Ok false).
Proof.
  intros Hr Hbw Hm. destruct (world_live _ _ _ _ _ Hr Hbw Hm) as (Hi & Hd & Hpd).
  pose proof (reached_shows U HU _ _ _ Hr Hbw) as Hs.
  assert (∀ c, c ≠ u_ent U → rg_get h c r = (r, match m !! c with Some v => Ok (CVal v) | None => Throw ComponentNotFound end)) as Hg.
  { intros c Hc. rewrite (sh_get _ _ _ Hs) by done. unfold a_get. by rewrite Hm. }
  assert (∀ cs, rg_has h cs r = (r, Ok (bool_decide (Forall (λ c, is_Some (m !! c)) cs)))) as Hh.
  { intros cs. rewrite (sh_has _ _ _ Hs) by done. unfold a_has. by rewrite Hm. }
  split; [done|]. split; [done|]. intros c Hc. rewrite Hg, Hh by done. cbn. destruct (m !! c) eqn:Ec.
  - rewrite bool_decide_eq_true_2; [done|]. apply Forall_singleton. eauto.
  - rewrite bool_decide_eq_false_2; [done|]. rewrite Forall_singleton, Ec. by intros [].
Qed.

(** The last write to a component is what get reports, until something writes the component again. *)
Theorem C10_last_write n rs ss (i : nat) h c v rs1 ss1 l rs' ss' r' : reach U n rs ss →
  spermitted U ss (At i (OSet h c (CtorOk v))) → run_sop U (At i (OSet h c (CtorOk v))) rs = (rs1, Ok RUnit) →
  snext U ss (At i (OSet h c (CtorOk v))) (Ok RUnit) ss1 → Forall2 (agrees U) rs1 ss1 →
  steps U rs1 ss1 l rs' ss' → below_wrap (2 * (S n + length l)) →
  Forall (λ x, ¬ writes i h c x.1) l → rs' !! i = Some r' →
  rg_get h c r' = (r', Ok (CVal v)).
Proof.
  intros Hr Hp Hrun Hn Ha Hs Hbw Hl Hr'.
  assert (reach U (S n) rs1 ss1) as Hr1 by (by eapply ReachS).
  assert (val_in ss1 i h c = Some v) as Hv1.
  { destruct Hn as (s & s' & Hi & Hn & ->). cbn in Hn. destruct (sr_world s !! h) as [m|] eqn:Hm.
    - destruct Hn as [[_ ->]|[? _]]; [|done]. unfold val_in. rewrite list_lookup_insert by (by eapply lookup_lt_Some). cbn.
      unfold val_at. cbn. rewrite lookup_insert. cbn. by rewrite lookup_insert.
    - destruct Hn as [(e & ? & _) _]. done. }
  pose proof (steps_keep U HU _ _ _ _ _ _ _ _ _ Hs (reach_swf U HU _ _ _ Hr1) Hl Hv1) as Hv'.
  pose proof (steps_reach U _ _ _ _ _ _ Hr1 Hs) as Hreach.
  unfold val_in in Hv'. destruct (ss' !! i) as [s'|] eqn:Hs'; [|done]. cbn in Hv'. unfold val_at in Hv'.
  destruct (sr_world s' !! h) as [m|] eqn:Hm; [|done]. cbn in Hv'.
  assert (reached U (S n + length l) r' s') as Hrd by (by exists rs', ss', i).
  destruct Hp as (s0 & _ & Hc & _).
  destruct (C10_get_has _ _ _ _ _ Hrd Hbw Hm) as [Hg _]. rewrite Hg by done. by rewrite Hv'.
Qed.

(** C11 *)
Theorem C11_dead n r s h : reached U n r s → below_wrap (2 * S n) → h ∈ sr_dead s →
  rg_alive r h = false ∧
  rg_destroy U h r = (r, Throw EntityNotFound) ∧
  (∀ c x, rg_set U h c x r = (r, Throw EntityNotFound)) ∧
  (∀ c x, rg_get_or_insert U h c x r = (r, Throw EntityNotFound)) ∧
  (∀ c, rg_remove U h c r = (r, Throw EntityNotFound)) ∧
  (∀ c, rg_get h c r = (r, Throw EntityNotFound)) ∧
  (∀ cs, rg_has h cs r = (r, Throw EntityNotFound)) ∧
  rg_visit h r = (r, Throw EntityNotFound) ∧
  (∀ ph, rg_clone_into U h ph r = (r, Throw EntityNotFound)) ∧
  (∀ d ph, rg_copy_into U r h ph d = (d, Throw EntityNotFound)) ∧
  (∀ d ph, rg_move_into U h ph (r, d) = ((r, d), Throw EntityNotFound)) ∧
  (sr_pending s = [] → ∃ r', rg_clone U h r = (r', Throw EntityNotFound) ∧ all_same U s r r') ∧
  (∀ n' d t, reached U n' d t → below_wrap (2 * S n') → sr_pending t = [] →
     ∃ d', rg_copy U r h d = (d', Throw EntityNotFound) ∧ rg_move U h (r, d) = ((r, d'), Throw EntityNotFound) ∧ all_same U t d d').
Proof.
  intros Hr Hbw Hd. destruct (reached_ri U HU _ _ _ Hr (bw_half _ Hbw)) as (iss & hp & Hri). pose proof Hri as [_ H _].
  pose proof (alive_dead U H h Hd) as Ha.
  assert (sr_world s !! h = None) as Hw.
  { destruct (sr_world s !! h) eqn:Ew; [|done]. destruct (rv_live _ _ _ _ _ _ _ _ _ H h) as (_ & ? & _); [eauto|done]. }
  destruct (out_specs U _ _ _ _ _ _ _ _ h H Hw) as (E1 & E2 & E3 & E4 & E5 & E6 & E7 & E8 & E9). rewrite Ha in *.
  assert (∀ n' d t iss' hp', ri U n' d t iss' hp' → below_wrap (S n') → sr_pending t = [] → ∃ d1 ph, rg_allocate d = (d1, Ok ph) ∧ all_same U t d d1) as Hal.
  { intros n' d t iss' hp' Hrd Hbd Hp. destruct (allocate_ri U HU n' d t iss' hp' Hrd Hbd Hp) as (d1 & ph & Ed & Hri1 & _).
    exists d1, ph. split; [done|]. eapply all_from; [by eapply ri_shows|by eapply ri_shows| |done]. done. }
  split; [done|]. split; [done|]. split; [done|]. split; [done|]. split; [done|]. split; [done|]. split; [done|]. split; [done|].
  split; [|split; [done|split; [done|split]]].
  - intros ph. unfold rg_clone_into. by rewrite (bind_ok _ _ r r r).
  - intros Hp. destruct (Hal _ _ _ _ _ Hri ltac:(unfold below_wrap in *; lia) Hp) as (r1 & ph & Er & Hall). exists r1. split; [|done].
    unfold rg_clone. rewrite (bind_ok _ _ _ _ _ Er), (bind_ok _ _ r1 r1 r1) by done.
    destruct (allocate_ri U HU _ _ _ _ _ Hri ltac:(unfold below_wrap in *; lia) Hp) as (r1' & ph' & Er' & [_ H1 _] & _).
    rewrite Er in Er'. injection Er' as <- <-.
    destruct (out_specs U _ _ _ _ _ _ _ _ h H1 Hw) as (_ & _ & _ & _ & _ & _ & _ & E8' & _). rewrite (alive_dead U H1 h Hd) in E8'. apply E8'.
  - intros n' d t Hrd Hbd Hp. destruct (reached_ri U HU _ _ _ Hrd (bw_half _ Hbd)) as (iss' & hp' & Hrid).
    destruct (Hal _ _ _ _ _ Hrid ltac:(unfold below_wrap in *; lia) Hp) as (d1 & ph & Ed & Hall). exists d1.
    split; [unfold rg_copy; by rewrite (bind_ok _ _ _ _ _ Ed)|]. split; [|done].
    unfold rg_move. rewrite (bind_ok _ _ (r, d) (r, d1) ph); [done|]. unfold on_snd. cbn [fst snd]. by rewrite Ed.
Qed.

(** C12: a program of permitted calls follows the abstract machine until undefined behaviour; [hazard] says
    where that can occur. *)
Theorem C12_refinement n rs ss op rs' o : reach U n rs ss → below_wrap (2 * S n) → spermitted U ss op →
  run_sop U op rs = (rs', o) →
  (∃ ss', snext U ss op o ss' ∧ reach U (S n) rs' ss') ∨ (o = UB ∧ hazard rs ss op).
Proof. intros Hr Hbw Hp Hrun. destruct (reach_step U HU _ _ _ _ _ _ Hr Hbw Hp Hrun) as [(ss' & ? & ? & _)|?]; eauto. Qed.

Theorem C12_traces k l rs : executes U (replicate k rg_init) l rs → below_wrap (2 * length l) →
  (∀ l1 op o l2 ss, l = l1 ++ (op, o) :: l2 → accepts U (replicate k sreg_init) l1 ss → spermitted U ss op) →
  (∀ op, (op, UB) ∉ l) →
  ∃ ss, accepts U (replicate k sreg_init) l ss ∧ Forall2 (agrees U) rs ss.
Proof.
  intros He Hbw Hper Hub. destruct (executes_reach U HU _ _ _ He Hbw Hper Hub) as (ss & Ha & Hr). exists ss. split; [done|].
  eapply sys_agrees; [done|]. by eapply reach_sys.
Qed.

(** C13 *)
Theorem C13_size n r s : reached U n r s → below_wrap (2 * n) → rg_size r = N.of_nat (size (sr_world s)).
Proof. intros Hr Hbw. apply (reached_shows U HU _ _ _ Hr Hbw). Qed.

Theorem C13_count k l rs ss (i : nat) r : steps U (replicate k rg_init) (replicate k sreg_init) l rs ss → below_wrap (2 * length l) →
  rs !! i = Some r →
  (rg_size r + N.of_nat (length (filter (λ x, taken i x = true) l)) = N.of_nat (length (filter (λ x, placed i x = true) l)))%N.
Proof.
  intros Hs Hbw Hi. pose proof (steps_reach U 0 _ _ _ _ _ (Reach0 U k) Hs) as Hr. cbn in Hr.
  pose proof (reach_sys U HU _ _ _ Hr Hbw) as Hsys. destruct (Forall2_lookup_l _ _ _ _ _ Hsys Hi) as (s & Hsi & _).
  rewrite (C13_size (length l) r s) by (done || by exists rs, ss, i).
  pose proof (steps_count U HU _ _ _ _ _ i Hs (reach_swf U HU _ _ _ (Reach0 U k))) as Hc.
  unfold world_size in Hc. rewrite Hsi in Hc. cbn [from_option] in Hc.
  assert (from_option (λ s, size (sr_world s)) 0 (replicate k sreg_init !! i) = 0) as E0.
  { destruct (replicate k sreg_init !! i) as [s0|] eqn:E; [|done]. apply lookup_replicate in E as [-> _]. cbn. apply map_size_empty. }
  rewrite E0 in Hc. cbn in Hc. lia.
Qed.

(** C23 *)
Theorem C23_visit n r s h : reached U n r s → below_wrap (2 * n) → is_Some (sr_world s !! h) →
  ∃ l, rg_visit h r = (r, Ok l) ∧ NoDup l.*1 ∧ u_ent U ∉ l.*1 ∧
    (∀ c x, c ≠ u_ent U → (c, x) ∈ l ↔ rg_get h c r = (r, Ok x)).
Proof.
  intros Hr Hbw [m Hm]. destruct (C10_get_has _ _ _ _ _ Hr Hbw Hm) as [Hg _].
  destruct (reached_ri U HU _ _ _ Hr Hbw) as (iss & hp & Hri). pose proof Hri as [_ H _].
  destruct (visit_spec U _ _ _ _ _ _ _ _ _ _ H Hm) as (l & E & Hl). exists l. split; [done|].
  assert (l.*1 ≡ₚ (map_to_list m).*1) as Hl1. { rewrite Hl, <- list_fmap_compose. by apply list_fmap_perm || done. }
  split; [rewrite Hl1; apply NoDup_fst_map_to_list|]. split.
  - rewrite Hl1. intros Hin. apply elem_of_list_fmap in Hin as ([c v] & Ec & Hin%elem_of_map_to_list). cbn in Ec. subst c.
    by rewrite (world_ent U _ _ _ _ _ _ _ Hri Hm) in Hin.
  - intros c x Hc. rewrite Hg by done. rewrite Hl, elem_of_list_fmap. split.
    + intros ([c' v] & [= -> ->] & Hin%elem_of_map_to_list). by rewrite Hin.
    + destruct (m !! c) as [v|] eqn:Hv; [|done]. intros [= <-]. exists (c, v). split; [done|]. by apply elem_of_map_to_list.
Qed.

(** The new entity of a copy. *)
Lemma copied t ph m d d' t' : shows U d t → shows U d' t' → sr_world t !! ph = None →
  sr_world t' = <[ph := m]> (sr_world t) → (∀ g, g ∈ sr_issued t → g ∈ sr_issued t') → ph ∈ sr_issued t' → ph ∉ sr_dead t →
  sr_dead t' = sr_dead t → sr_pending t' = sr_pending t → ph ∉ sr_pending t →
  rg_alive d' ph = true ∧
  (∀ c, c ≠ u_ent U → (rg_get ph c d').2 = match m !! c with Some v => Ok (CVal v) | None => Throw ComponentNotFound end) ∧
  (∀ cs, (rg_has ph cs d').2 = Ok (bool_decide (Forall (λ c, is_Some (m !! c)) cs))) ∧
  rg_size d' = (rg_size d + 1)%N ∧ others_same U t ph d d'.
Proof.
  intros Hs Hs' Hw Ew Hi Hpi Hd Ed Ep Hp. split; [|split; [|split; [|split]]].
  - rewrite (sh_alive _ _ _ Hs') by (done || by rewrite Ep). apply bool_decide_eq_true. by rewrite Ed.
  - intros c Hc. rewrite (sh_get _ _ _ Hs') by (done || by rewrite Ep). unfold a_get. by rewrite Ew, lookup_insert.
  - intros cs. rewrite (sh_has _ _ _ Hs') by (done || by rewrite Ep). unfold a_has. by rewrite Ew, lookup_insert.
  - rewrite (sh_size _ _ _ Hs), (sh_size _ _ _ Hs'), Ew, map_size_insert_None by done. lia.
  - eapply others_from; [done|done|]. intros g Hgi Hgp Hg. rewrite Ew, Ed, Ep, lookup_insert_ne by done. auto.
Qed.

(** C24 *)
Theorem C24_clone n r s h m : reached U n r s → below_wrap (2 * S n) → sr_pending s = [] → sr_world s !! h = Some m →
  (copyable U m →
     ∃ r' h', rg_clone U h r = (r', Ok h') ∧ h' ∉ sr_issued s ∧ rg_alive r' h' = true ∧
       (∀ c, c ≠ u_ent U → (rg_get h' c r').2 = (rg_get h c r).2) ∧ (∀ cs, (rg_has h' cs r').2 = (rg_has h cs r).2) ∧
       rg_size r' = (rg_size r + 1)%N ∧ (∀ g, g ∈ sr_issued s → same_obs U r r' g)) ∧
  (¬ copyable U m → ∃ r', rg_clone U h r = (r', Throw InvalidArgument) ∧ all_same U s r r').
Proof.
  intros Hr Hbw Hp Hm. destruct (world_live _ _ _ _ _ Hr (bw_half _ Hbw) Hm) as (Hi & Hd & Hpd).
  destruct (run_rop U (OClone h) r) as [r' o] eqn:E.
  destruct (reached_step U HU _ _ _ (OClone h) _ _ Hr Hbw Hp E) as [(s' & Hn & Hr' & _)|[_ []]].
  pose proof (reached_shows U HU _ _ _ Hr (bw_half _ Hbw)) as Hs. pose proof (reached_shows U HU _ _ _ Hr' Hbw) as Hs'.
  destruct (C10_get_has _ _ _ _ _ Hr (bw_half _ Hbw) Hm) as (Hg & Hh & _). pose proof (reached_swf U HU _ _ _ Hr) as (W1 & W2 & W3).
  cbn in Hn. rewrite Hm in Hn. destruct Hn as [(Hc & ph & Hph & -> & ->)|(Hc & -> & ->)].
  - split; [intros _|done]. apply mapM_ok in E as (x & E & [= <-]). exists r', ph. split; [done|]. split; [done|].
    assert (sr_world s !! ph = None) as Hw. { destruct (sr_world s !! ph) eqn:Ew; [|done]. destruct Hph. eauto. }
    assert (others_same U s ph r r' → ∀ g, g ∈ sr_issued s → same_obs U r r' g) as Hot.
    { intros Ho g Hgi. apply Ho; [done|rewrite Hp; apply not_elem_of_nil|by intros ->]. }
    destruct (copied s ph m r r' _ Hs Hs' Hw eq_refl) as (H1 & H2 & H3 & H4 & H5); cbn; rewrite ?Hp; try done.
    + intros g ?. by right.
    + by left.
    + intros ?. by apply Hph, W2.
    + apply not_elem_of_nil.
    + split; [done|]. split; [intros c Hc'; by rewrite H2, Hg|]. split; [intros cs; by rewrite H3, Hh|]. split; [done|]. by apply Hot.
  - split; [done|intros _]. apply mapM_throw in E. exists r'. split; [done|]. by eapply all_from.
Qed.

(** C25: the registries are two of a program, [i] and [j]. *)
Lemma two_step n rs ss op rs' o : reach U n rs ss → below_wrap (2 * S n) → spermitted U ss op → run_sop U op rs = (rs', o) →
  (∃ ss', snext U ss op o ss' ∧ reach U (S n) rs' ss') ∨ (o = UB ∧ hazard rs ss op).
Proof. apply C12_refinement. Qed.

Theorem C25_move n rs ss (i j : nat) a b s t h m : reach U n rs ss → below_wrap (2 * S n) → i ≠ j →
  rs !! i = Some a → rs !! j = Some b → ss !! i = Some s → ss !! j = Some t →
  sr_pending s = [] → sr_pending t = [] → sr_world s !! h = Some m → ¬ trapped a h →
  ∃ a' b' h', rg_move U h (a, b) = ((a', b'), Ok h') ∧ h' ∉ sr_issued t ∧ rg_alive b' h' = true ∧
    (∀ c, c ≠ u_ent U → (rg_get h' c b').2 = (rg_get h c a).2) ∧ (∀ cs, (rg_has h' cs b').2 = (rg_has h cs a).2) ∧
    rg_alive a' h = false ∧ (rg_size a' + 1)%N = rg_size a ∧ rg_size b' = (rg_size b + 1)%N ∧
    others_same U s h a a' ∧ (∀ g, g ∈ sr_issued t → same_obs U b b' g).
Proof.
  intros Hr Hbw Hij Ha Hb Hs Ht Hps Hpt Hm Hhf.
  assert (reached U n a s) as Hra by (by exists rs, ss, i). assert (reached U n b t) as Hrb by (by exists rs, ss, j).
  destruct (world_live _ _ _ _ _ Hra (bw_half _ Hbw) Hm) as (Hi & Hd & Hpd).
  destruct (rg_move U h (a, b)) as [[a' b'] o] eqn:E.
  assert (run_sop U (Move i h j) rs = (<[j := b']> (<[i := a']> rs), omap_out RHandle o)) as E'.
  { cbn. unfold on_regs. rewrite Ha, Hb. unfold mapM. by rewrite E. }
  assert (spermitted U ss (Move i h j)) as Hper by (split; [done|]; exists s, t; auto).
  destruct (two_step _ _ _ _ _ _ Hr Hbw Hper E') as [(ss' & Hn & Hr')|[_ Hh]].
  2:{ destruct Hh as (r0 & s0 & Hr0 & _ & Hh & _). rewrite Ha in Hr0. by injection Hr0 as <-. }
  destruct Hn as (s0 & t0 & Hs0 & Ht0 & Hn). assert (s0 = s) as -> by congruence. assert (t0 = t) as -> by congruence. rewrite Hm in Hn.
  destruct Hn as (ph & Hph & Eo & ->). destruct o as [h'|e|]; try done. injection Eo as ->.
  pose proof (lookup_lt_Some _ _ _ Ha) as LHa. pose proof (lookup_lt_Some _ _ _ Hb) as LHb. pose proof (lookup_lt_Some _ _ _ Hs) as LHs. pose proof (lookup_lt_Some _ _ _ Ht) as LHt.
  assert (reached U (S n) a' (kill s h)) as Hra'.
  { eexists _, _, i. split; [exact Hr'|]. split; rewrite list_lookup_insert_ne by done; by rewrite list_lookup_insert. }
  assert (reached U (S n) b' (with_world (issue t ph) (<[ph := m]> (sr_world t)))) as Hrb'.
  { eexists _, _, j. split; [exact Hr'|]. split; by rewrite list_lookup_insert by (by rewrite insert_length). }
  pose proof (reached_shows U HU _ _ _ Hra (bw_half _ Hbw)) as Sa. pose proof (reached_shows U HU _ _ _ Hrb (bw_half _ Hbw)) as Sb.
  pose proof (reached_shows U HU _ _ _ Hra' Hbw) as Sa'. pose proof (reached_shows U HU _ _ _ Hrb' Hbw) as Sb'.
  destruct (C10_get_has _ _ _ _ _ Hra (bw_half _ Hbw) Hm) as (Hg & Hh & _). pose proof (reached_swf U HU _ _ _ Hrb) as (W1 & W2 & W3).
  exists a', b', ph. split; [done|]. split; [done|].
  assert (sr_world t !! ph = None) as Hw. { destruct (sr_world t !! ph) eqn:Ew; [|done]. destruct Hph. eauto. }
  assert (others_same U t ph b b' → ∀ g, g ∈ sr_issued t → same_obs U b b' g) as Hot.
  { intros Ho g Hgi. apply Ho; [done|rewrite Hpt; apply not_elem_of_nil|by intros ->]. }
  destruct (copied t ph m b b' _ Sb Sb' Hw eq_refl) as (H1 & H2 & H3 & H4 & H5); cbn; rewrite ?Hpt; try done.
  - intros g ?. by right.
  - by left.
  - intros ?. by apply Hph, W2.
  - apply not_elem_of_nil.
  - split; [done|]. split; [intros c Hc'; by rewrite H2, Hg|]. split; [intros cs; by rewrite H3, Hh|].
    split; [|split; [|split; [done|split; [|by apply Hot]]]].
    + rewrite (sh_alive _ _ _ Sa') by done. apply bool_decide_eq_false. intros Hx. apply Hx. cbn. by left.
    + rewrite (sh_size _ _ _ Sa), (sh_size _ _ _ Sa'). cbn. rewrite map_size_delete, Hm. cbn.
      destruct (size (sr_world s)) eqn:Ez; [|lia]. apply map_size_empty_inv in Ez. by rewrite Ez, lookup_empty in Hm.
    + eapply others_from; [done|done|]. intros g Hgi Hgp Hgh. cbn. rewrite lookup_delete_ne by done. split; [done|]. split; [done|]. split; [done|]. set_solver.
Qed.

Theorem C25_copy n rs ss (i j : nat) a b s t h m : reach U n rs ss → below_wrap (2 * S n) → i ≠ j →
  rs !! i = Some a → rs !! j = Some b → ss !! i = Some s → ss !! j = Some t →
  sr_pending t = [] → sr_world s !! h = Some m →
  (copyable U m →
     ∃ b' h', rg_copy U a h b = (b', Ok h') ∧ h' ∉ sr_issued t ∧ rg_alive b' h' = true ∧
       (∀ c, c ≠ u_ent U → (rg_get h' c b').2 = (rg_get h c a).2) ∧ (∀ cs, (rg_has h' cs b').2 = (rg_has h cs a).2) ∧
       rg_size b' = (rg_size b + 1)%N ∧ (∀ g, g ∈ sr_issued t → same_obs U b b' g)) ∧
  (¬ copyable U m → ∃ b', rg_copy U a h b = (b', Throw InvalidArgument) ∧ all_same U t b b').
Proof.
  intros Hr Hbw Hij Ha Hb Hs Ht Hpt Hm.
  assert (reached U n a s) as Hra by (by exists rs, ss, i). assert (reached U n b t) as Hrb by (by exists rs, ss, j).
  destruct (world_live _ _ _ _ _ Hra (bw_half _ Hbw) Hm) as (Hi & Hd & Hpd).
  destruct (rg_copy U a h b) as [b' o] eqn:E.
  assert (run_sop U (Copy i h j) rs = (<[j := b']> (<[i := a]> rs), omap_out RHandle o)) as E'.
  { cbn. unfold on_regs. rewrite Ha, Hb. cbn [fst snd]. unfold mapM. by rewrite E. }
  assert (spermitted U ss (Copy i h j)) as Hper by (split; [done|]; exists s, t; auto).
  destruct (two_step _ _ _ _ _ _ Hr Hbw Hper E') as [(ss' & Hn & Hr')|[_ []]].
  destruct Hn as (s0 & t0 & Hs0 & Ht0 & Hn). assert (s0 = s) as -> by congruence. assert (t0 = t) as -> by congruence. rewrite Hm in Hn.
  pose proof (lookup_lt_Some _ _ _ Hb) as LHb. pose proof (lookup_lt_Some _ _ _ Ht) as LHt.
  assert (∀ t', ss' = <[j := t']> ss → reached U (S n) b' t') as Hrb'.
  { intros t' ->. eexists _, _, j. split; [exact Hr'|]. split; by rewrite list_lookup_insert by (by rewrite ?insert_length). }
  pose proof (reached_shows U HU _ _ _ Hra (bw_half _ Hbw)) as Sa. pose proof (reached_shows U HU _ _ _ Hrb (bw_half _ Hbw)) as Sb.
  destruct (C10_get_has _ _ _ _ _ Hra (bw_half _ Hbw) Hm) as (Hg & Hh & _). pose proof (reached_swf U HU _ _ _ Hrb) as (W1 & W2 & W3).
  destruct Hn as [(Hc & ph & Hph & Eo & Ess)|(Hc & Eo & Ess)]; pose proof (reached_shows U HU _ _ _ (Hrb' _ Ess) Hbw) as Sb'.
  - split; [intros _|done]. destruct o as [h'|e|]; try done. injection Eo as ->. exists b', ph. split; [done|]. split; [done|].
    assert (sr_world t !! ph = None) as Hw. { destruct (sr_world t !! ph) eqn:Ew; [|done]. destruct Hph. eauto. }
    assert (others_same U t ph b b' → ∀ g, g ∈ sr_issued t → same_obs U b b' g) as Hot.
    { intros Ho g Hgi. apply Ho; [done|rewrite Hpt; apply not_elem_of_nil|by intros ->]. }
    destruct (copied t ph m b b' _ Sb Sb' Hw eq_refl) as (H1 & H2 & H3 & H4 & H5); cbn; rewrite ?Hpt; try done.
    + intros g ?. by right.
    + by left.
    + intros ?. by apply Hph, W2.
    + apply not_elem_of_nil.
    + split; [done|]. split; [intros c Hc'; by rewrite H2, Hg|]. split; [intros cs; by rewrite H3, Hh|]. split; [done|]. by apply Hot.
  - split; [done|intros _]. destruct o as [h'|e|]; try done. injection Eo as ->. exists b'. split; [done|]. by eapply all_from.
Qed.
End props.

(** * Examples *)

Lemma reached_run k ops rs ss (i : nat) r s : below_wrap (2 * length ops) →
  prog U0 ops (replicate k rg_init) (replicate k sreg_init) = Some (rs, ss) → rs !! i = Some r → ss !! i = Some s →
  reached U0 (length ops) r s.
Proof. intros Hbw E Hr Hs. exists rs, ss, i. split; [|done]. by apply (prog_reach U0 U0_wf k). Qed.

Definition e0 := Handle 0 0. Definition e1 := Handle 1 0. Definition e2 := Handle 2 0.

(** Three entities of two archetypes, one of them destroyed; in the second registry one entity. *)
Definition ops0 : list sop :=
  [ At 0 (OCreate [(1%N, (Val 10)); (2%N, (Val 20))]); At 0 (OCreate [(1%N, (Val 11))]); At 0 (OCreate [(1%N, (Val 12)); (2%N, (Val 22))]);
    At 0 (ODestroy e1); At 0 (OSet e0 (3%N) (CtorOk (Val 30))); At 1 (OCreate [(5%N, (Val 55))]) ].
Definition rs0 : list registry := default [] (fst <$> prog U0 ops0 (replicate 2 rg_init) (replicate 2 sreg_init)).
Definition ss0 : list sreg := default [] (snd <$> prog U0 ops0 (replicate 2 rg_init) (replicate 2 sreg_init)).
Definition r0 := default rg_init (rs0 !! 0). Definition s0 := default sreg_init (ss0 !! 0).
Definition r1 := default rg_init (rs0 !! 1). Definition s1 := default sreg_init (ss0 !! 1).

Example ex_reach : reach U0 6 rs0 ss0.
Proof. apply (prog_reach U0 U0_wf 2 ops0); [vm_compute; done|]. unfold rs0, ss0. destruct (prog _ _ _ _) as [[??]|] eqn:E; [done|]. by vm_compute in E. Qed.
Lemma ex_r0 : rs0 !! 0 = Some r0. Proof. vm_compute. done. Qed.
Lemma ex_s0 : ss0 !! 0 = Some s0. Proof. vm_compute. done. Qed.
Lemma ex_r1 : rs0 !! 1 = Some r1. Proof. vm_compute. done. Qed.
Lemma ex_s1 : ss0 !! 1 = Some s1. Proof. vm_compute. done. Qed.
Example ex_reached : reached U0 6 r0 s0.
Proof. exists rs0, ss0, 0. split; [apply ex_reach|]. split; [apply ex_r0|apply ex_s0]. Qed.
Example ex_reached1 : reached U0 6 r1 s1.
Proof. exists rs0, ss0, 1. split; [apply ex_reach|]. split; [apply ex_r1|apply ex_s1]. Qed.
Definition m0 : gmap cid val := {[1%N := (Val 10); 2%N := (Val 20); 3%N := (Val 30)]}.
Example ex_world : sr_world s0 !! e0 = Some m0.
Proof. apply (bool_decide_unpack _). vm_compute. exact I. Qed.
Example ex_dead : e1 ∈ sr_dead s0.
Proof. apply (bool_decide_unpack _). by vm_compute. Qed.
Lemma bw7 : below_wrap (2 * 7). Proof. by vm_compute. Qed.

(** Checking absence of holes. *)
Definition hole_free_b (r : registry) : bool :=
  forallb (λ ar, match last (ar_chunks ar) with Some k => negb (Nat.eqb (ck_size k) 0) || Nat.leb (length (ar_chunks ar)) 1 | None => true end) (rg_heap r).
Lemma hole_free_ok r : hole_free_b r = true → hole_free r.
Proof.
  unfold hole_free_b. rewrite forallb_forall. intros H a ar k Ha Hk H0.
  assert (In ar (rg_heap r)) as Hin by (by eapply elem_of_list_In, elem_of_list_lookup_2).
  specialize (H ar Hin). rewrite Hk, H0 in H. cbn in H. by apply Nat.leb_le.
Qed.
Lemma ex_hf h : ¬ trapped r0 h. Proof. intros Ht. apply (trapped_hole _ _ Ht), hole_free_ok. by vm_compute. Qed.

(** Few small components are not refused. *)
Lemma small_fits m : (∀ c, is_Some (m !! c) → u_type U0 c = CType 4 4) → get_max_size (replicate (size m) (CType 4 4)) ≠ None → ¬ refused U0 m.
Proof.
  intros H Hs (cs & Hnd & Hcs & Hg). apply Hs. rewrite <- Hg. f_equal.
  assert (list_to_set cs = dom m) as E.
  { apply set_eq. intros c. rewrite elem_of_list_to_set, elem_of_dom. apply Hcs. }
  rewrite <- size_dom, <- E, size_list_to_set by done. clear E Hg Hs Hnd.
  assert (∀ c, c ∈ cs → u_type U0 c = CType 4 4) as Ht by (intros c Hc; by apply H, Hcs). clear H Hcs.
  induction cs as [|c cs IH]; [done|]. cbn [length replicate fmap list_fmap]. f_equal; [symmetry; apply Ht; by left|]. apply IH. intros. apply Ht. by right.
Qed.

Example ex_C05 := C05_create U0 U0_wf 6 r0 s0 [(4%N, (Val 40)); (1%N, (Val 13))] ex_reached bw7.
Example ex_C05_hyps : sr_pending s0 = [] ∧ NoDup [(4%N, (Val 40)); (1%N, (Val 13))].*1 ∧ get_max_size (u_type U0 <$> [4%N; 1%N]) ≠ None.
Proof. split; [by vm_compute|]. split; [apply (bool_decide_unpack _); by vm_compute|by vm_compute]. Qed.
Example ex_C06 := C06_destroy U0 U0_wf 6 r0 s0 e0 ex_reached bw7 eq_refl (mk_is_Some _ _ ex_world) (ex_hf e0).
Example ex_C06_run : ((rg_destroy U0 e0 r0).2, rg_size r0, rg_size (rg_destroy U0 e0 r0).1) = (Ok tt, 2%N, 1%N).
Proof. by vm_compute. Qed.
Example ex_C07 := C07_set U0 U0_wf 6 r0 s0 e0 m0 2%N (Val 99) ex_reached bw7 ex_world ltac:(done) (or_introl (mk_is_Some _ _ (eq_refl : m0 !! 2%N = Some (Val 20)))).
Lemma m0_dom c : is_Some (m0 !! c) → c = 1%N ∨ c = 2%N ∨ c = 3%N.
Proof. unfold m0. intros H. repeat (apply lookup_insert_is_Some in H as [<-|[_ H]]; [tauto|]). destruct H as [v [<- _]%lookup_singleton_Some]. tauto. Qed.
Example ex_C07_absent := C07_set U0 U0_wf 6 r0 s0 e0 m0 4%N (Val 44) ex_reached bw7 ex_world ltac:(done).
Example ex_C07_absent_hyp : is_Some (m0 !! 4%N) ∨ ¬ trapped r0 e0 ∧ ¬ refused U0 (<[4%N := Val 44]> m0).
Proof.
  right. split; [apply ex_hf|]. apply small_fits; [|by vm_compute].
  intros c [<-|[_ H%m0_dom]]%lookup_insert_is_Some; [done|]. by destruct H as [->|[->| ->]].
Qed.
Example ex_C07_run : (rg_get e0 2%N (rg_set U0 e0 2%N (CtorOk (Val 99)) r0).1).2 = Ok (CVal (Val 99)) ∧
  (rg_get e0 4%N (rg_set U0 e0 4%N (CtorOk (Val 44)) r0).1).2 = Ok (CVal (Val 44)) ∧ (rg_get e0 1%N (rg_set U0 e0 4%N (CtorOk (Val 44)) r0).1).2 = Ok (CVal (Val 10)).
Proof. by vm_compute. Qed.
Example ex_C08 := C08_remove U0 U0_wf 6 r0 s0 e0 m0 4%N ex_reached bw7 ex_world ltac:(done) (or_introl (eq_refl : m0 !! 4%N = None)).
Example ex_C08_run : ((rg_remove U0 e0 2%N r0).2, (rg_get e0 2%N (rg_remove U0 e0 2%N r0).1).2, (rg_get e0 3%N (rg_remove U0 e0 2%N r0).1).2) =
  (Ok tt, Throw ComponentNotFound, Ok (CVal (Val 30))).
Proof. by vm_compute. Qed.
Example ex_C09 := C09_get_or_insert U0 U0_wf 6 r0 s0 e0 m0 2%N (Val 99) ex_reached bw7 ex_world ltac:(done) (or_introl (mk_is_Some _ _ (eq_refl : m0 !! 2%N = Some (Val 20)))).
Example ex_C10 := C10_get_has U0 U0_wf 6 r0 s0 e0 m0 ex_reached.
Example ex_C11 := C11_dead U0 U0_wf 6 r0 s0 e1 ex_reached bw7 ex_dead.
Example ex_C13 : rg_size r0 = 2%N ∧ size (sr_world s0) = 2. Proof. by vm_compute. Qed.
Example ex_C23 : (rg_visit e0 r0).2 = Ok [(1%N, CVal (Val 10)); (2%N, CVal (Val 20)); (3%N, CVal (Val 30))]. Proof. by vm_compute. Qed.
Example ex_C24 := C24_clone U0 U0_wf 6 r0 s0 e0 m0 ex_reached bw7 eq_refl ex_world.
Example ex_C24_copyable : copyable U0 m0 ∧ ¬ copyable U0 {[5%N := (Val 55)]}.
Proof.
  split.
  - intros c [v Hv]. apply elem_of_map_to_list in Hv. vm_compute in Hv.
    repeat (apply elem_of_cons in Hv as [[= -> ->]|Hv]; [by vm_compute|]). by apply elem_of_nil in Hv.
  - intros H. specialize (H 5%N). discriminate H. by exists (Val 55).
Qed.
Example ex_C25 := C25_move U0 U0_wf 6 rs0 ss0 0 1 r0 r1 s0 s1 e0 m0 ex_reach bw7 ltac:(done) ex_r0 ex_r1 ex_s0 ex_s1 eq_refl eq_refl ex_world (ex_hf e0).
Example ex_C25_copy := C25_copy U0 U0_wf 6 rs0 ss0 0 1 r0 r1 s0 s1 e0 m0 ex_reach bw7 ltac:(done) ex_r0 ex_r1 ex_s0 ex_s1 eq_refl ex_world.

Print Assumptions C05_create.
Print Assumptions C06_destroy.
Print Assumptions C07_set.
Print Assumptions C08_remove.
Print Assumptions C09_get_or_insert.
Print Assumptions C10_get_has.
Print Assumptions C10_last_write.
Print Assumptions C11_dead.
Print Assumptions C12_refinement.
Print Assumptions C12_traces.
Print Assumptions C13_size.
Print Assumptions C13_count.
Print Assumptions C23_visit.
Print Assumptions C24_clone.
Print Assumptions C25_move.
Print Assumptions C25_copy.
