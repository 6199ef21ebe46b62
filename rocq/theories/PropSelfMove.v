(** C84: an entity moved into a placeholder of its own registry. *)
From Verif Require Import Base Bits Layout PropLayout HandlePool HandleSpec HandlePoolProofs SparseMap SparseMapProofs
  HashTable HashTableProofs HashTableMap Bitset BitsetProofs ComponentSet ComponentSetProofs
  Chunk ChunkProofs Archetype ArchetypeProofs Registry RegistryStore RegistryProofs View ViewProofs RegSpec RegSpecProofs RegObs RegRun
  Placeholder PropRegistry PropPlaceholder SelfMove.

(** Either undefined behaviour or a result as described; no exception. *)
Definition goes {S A} (P : S → Prop) (m : M S A) (Q : A → S → Prop) : Prop := ∀ s, P s → match m s with
  | (s', Ok x) => Q x s' | (_, Throw _) => False | (_, UB) => True end.

Lemma goes_bind {S A B} P (m : M S A) (f : A → M S B) Q R : goes P m Q → (∀ x, goes (Q x) (f x) R) → goes P (bind m f) R.
Proof.
  intros Hm Hf s Hs. specialize (Hm s Hs). unfold bind. destruct (m s) as [s1 [x|e|]]; try done. by apply Hf.
Qed.
Lemma goes_ret {S A} (P : S → Prop) (x : A) (Q : A → S → Prop) : (∀ s, P s → Q x s) → goes P (ret x) Q.
Proof. intros H s Hs. by apply H. Qed.
Lemma goes_ub {S A} (P : S → Prop) (Q : A → S → Prop) : goes P ub Q.
Proof. by intros s Hs. Qed.
Lemma goes_get {S} (P : S → Prop) (Q : S → S → Prop) : (∀ s, P s → Q s s) → goes P get Q.
Proof. intros H s Hs. by apply H. Qed.
Lemma goes_forM {S A} (P : S → Prop) (l : list A) (f : A → M S unit) : (∀ x, x ∈ l → goes P (f x) (λ _, P)) → goes P (forM l f) (λ _, P).
Proof.
  induction l as [|x l IH]; intros H; cbn [forM]; [by apply goes_ret|]. eapply goes_bind; [apply H; by left|]. intros ?. apply IH. intros y Hy. apply H. by right.
Qed.
Lemma goes_weak {S A} (P P' : S → Prop) (m : M S A) (Q Q' : A → S → Prop) : goes P m Q → (∀ s, P' s → P s) → (∀ x s, Q x s → Q' x s) → goes P' m Q'.
Proof. intros H H1 H2 s Hs. specialize (H s (H1 s Hs)). destruct (m s) as [s1 [x|e|]]; auto. Qed.

Lemma goes_know {S A} (φ : Prop) (P : S → Prop) (m : M S A) (Q : A → S → Prop) : (∀ s, P s → φ) → (φ → goes P m Q) → goes P m Q.
Proof. intros H1 H2 s Hs. apply H2; [by eapply H1|done]. Qed.

Section props.
Context (U : universe).
Hypothesis HU : u_wf U.

(** Blocks and sizes of an archetype. *)
Definition shape (bl : blocks) (zs : list nat) (a : archetype) : Prop := ar_blocks a = bl ∧ (ck_size <$> ar_chunks a) = zs.

Lemma shape_at bl zs a c k : shape bl zs a → ar_chunks a !! c = Some k → zs !! c = Some (ck_size k).
Proof. intros [_ <-] H. by rewrite list_lookup_fmap, H. Qed.
Lemma shape_len bl zs a : shape bl zs a → length (ar_chunks a) = length zs.
Proof. intros [_ <-]. by rewrite fmap_length. Qed.

(** Operations on objects keep the sizes. *)
Definition keeps {X} (m : M chunk X) : Prop := ∀ k, match m k with (k', Ok _) => ck_size k' = ck_size k | (_, Throw _) => False | (_, UB) => True end.
Lemma keeps_take o : keeps (take_obj o).
Proof. intros k. unfold take_obj, bind, read_obj, assign_obj. destruct (ck_mem k !! o) eqn:E; [|done]. by rewrite E. Qed.
Lemma keeps_read o : keeps (read_obj o).
Proof. intros k. unfold read_obj. by destruct (ck_mem k !! o). Qed.
Lemma keeps_construct o x : keeps (construct_at o x).
Proof. by intros k. Qed.
Lemma keeps_assign o x : keeps (assign_obj o x).
Proof. intros k. unfold assign_obj. by destruct (ck_mem k !! o). Qed.
Lemma goes_keeps {X} bl zs c (m : M chunk X) : keeps m → goes (shape bl zs) (on_chunk c m) (λ _, shape bl zs).
Proof.
  intros Hm a [<- <-]. unfold on_chunk. destruct (ar_chunks a !! c) as [k|] eqn:E; [|done]. specialize (Hm k). destruct (m k) as [k' [x|e|]]; try done.
  split; [done|]. unfold ar_with_chunks. cbn [ar_chunks]. rewrite list_fmap_insert, Hm. apply list_insert_id. by rewrite list_lookup_fmap, E.
Qed.
Lemma goes_chunk bl zs c : goes (shape bl zs) (on_chunk c get) (λ k a, shape bl zs a ∧ ar_chunks a !! c = Some k).
Proof.
  intros a Ha. unfold on_chunk, get. destruct (ar_chunks a !! c) as [k|] eqn:E; [|done].
  assert (ar_with_chunks a (<[c := k]> (ar_chunks a)) = a) as ->; [|done]. rewrite list_insert_id by done. by destruct a.
Qed.
Lemma goes_at {S} (P : S → Prop) cs mx bl c : bl_ok U cs mx bl → c ∈ u_ent U :: cs → goes P (blk_at bl c) (λ b s, P s ∧ sm_abs bl !! c = Some b).
Proof.
  intros Hb Hc s Hs. destruct (bl_lookup U Hb c Hc) as [b Eb]. unfold blk_at. by rewrite (sm_at_spec w32), Eb by apply Hb.
Qed.
Lemma goes_find {S} (P : S → Prop) (bl : blocks) c : goes P (blk_find bl c) (λ _, P).
Proof.
  unfold blk_find. destruct (sm_find bl c) as [[i|]|]; try apply goes_ub. intros s Hs. unfold of_opt. by destruct (snd <$> _).
Qed.

(** pop_back: the size is one smaller and the row has no handle any more. *)
Lemma destroys_no (l : list (N * bmeta)) i o : ∀ k, (o ∈ (λ e, addr e.2 i) <$> l ∨ ck_mem k !! o = None) →
  match forM l (λ e, destroy_obj (addr e.2 i)) k with (k', Ok _) => ck_size k' = ck_size k ∧ ck_mem k' !! o = None | (_, Throw _) => False | (_, UB) => True end.
Proof.
  induction l as [|e l IH]; intros k H; cbn [forM].
  - destruct H as [H|H]; [by apply elem_of_nil in H|done].
  - unfold bind, destroy_obj at 1. destruct (ck_mem k !! addr e.2 i) eqn:E; [|done].
    specialize (IH (Chunk (delete (addr e.2 i) (ck_mem k)) (ck_size k) (ck_max k) (ck_lost k))). cbn [ck_mem ck_size] in IH. apply IH.
    rewrite fmap_cons in H. destruct H as [[->|H]%elem_of_cons|H]; [right; apply lookup_delete|by left|right].
    apply lookup_delete_None. by right.
Qed.

Lemma goes_pop bl zs c n cs mx eb : bl_ok U cs mx bl → sm_abs bl !! u_ent U = Some eb → zs !! c = Some (S n) →
  goes (shape bl zs) (on_chunk c (ck_pop_back bl)) (λ _ a, shape bl (<[c := n]> zs) a ∧ ∃ k, ar_chunks a !! c = Some k ∧ ck_mem k !! addr eb n = None).
Proof.
  intros Hb Heb Hz a Ha. pose proof Ha as [<- E0]. unfold on_chunk. destruct (ar_chunks a !! c) as [k|] eqn:E; [|done].
  pose proof (shape_at _ _ _ _ _ Ha E) as Es. rewrite Hz in Es. injection Es as Es.
  unfold ck_pop_back, bind at 1, get. unfold ck_empty. rewrite bool_decide_eq_false_2 by lia. rewrite <- Es. replace (S n - 1) with n by lia.
  unfold bind at 1, ck_set_size at 1.
  assert (addr eb n ∈ (λ e : N * bmeta, addr e.2 n) <$> sm_dense (ar_blocks a)) as Hin.
  { apply elem_of_list_fmap. apply (sm_abs_Some w32) in Heb as [j Hj]; [|apply Hb]. exists (u_ent U, eb). split; [done|]. by eapply elem_of_list_lookup_2. }
  pose proof (destroys_no (sm_dense (ar_blocks a)) n (addr eb n) (Chunk (ck_mem k) n (ck_max k) (ck_lost k)) (or_introl Hin)) as H. unfold ck_destroy_at.
  destruct (forM _ _ _) as [k' [[]|e|]]; [|done|done]. destruct H as [H1 H2]. split; [split; [done|]|].
  - unfold ar_with_chunks. cbn [ar_chunks]. rewrite list_fmap_insert, H1, E0. done.
  - exists k'. split; [|done]. unfold ar_with_chunks. cbn [ar_chunks]. apply list_lookup_insert. by eapply lookup_lt_Some.
Qed.

(** archetype::move inside one archetype, into its last chunk. *)
Lemma goes_move bl zs c f i n m cs mx : bl_ok U cs mx bl → zs !! c = Some n → zs !! f = Some m → 
  goes (shape bl zs) (ck_move_self c f i) (λ row a, i < n ∧ row = m ∧ shape bl (<[f := S m]> zs) a).
Proof.
  intros Hb Hc Hf. unfold ck_move_self.
  eapply goes_bind; [apply (goes_get _ (λ a0 a, a0 = a ∧ shape bl zs a)); done|]. intros a0.
  apply (goes_know (ar_blocks a0 = bl)); [by intros a [<- [? _]]|]; intros E0.
  eapply (goes_bind _ _ _ (λ k a, shape bl zs a ∧ ar_chunks a !! c = Some k)); [eapply goes_weak; [apply (goes_chunk bl zs c)| |]; [by intros ? [_ ?]|done]|]. intros s.
  destruct (decide (ck_size s = n)) as [<-|Hn]; [|intros a [Ha Hs]; rewrite (shape_at _ _ _ _ _ Ha Hs) in Hc; congruence].
  eapply (goes_bind _ _ _ (λ k a, shape bl zs a ∧ ar_chunks a !! f = Some k)); [eapply goes_weak; [apply (goes_chunk bl zs f)| |]; [by intros ? [? _]|done]|]. intros d.
  destruct (decide (ck_size d = m)) as [<-|Hm]; [|intros a [Ha Hs]; rewrite (shape_at _ _ _ _ _ Ha Hs) in Hf; congruence].
  destruct (decide (ck_size s ≤ i)); [apply goes_ub|]. destruct (ck_full d); [apply goes_ub|]. rewrite E0.
  eapply (goes_bind _ _ _ (λ _, shape bl zs)).
  { apply (goes_weak (shape bl zs) _ _ (λ _, shape bl zs)); [|by intros ? [? _]|done]. apply goes_forM. intros e He. rewrite (sm_contains_spec w32) by apply Hb.
    destruct (bool_decide _) eqn:B; [|by apply goes_ret]. apply bool_decide_eq_true in B.
    eapply goes_bind.
    { apply (goes_at (shape bl zs) cs mx bl e.1 Hb). rewrite <- (bo_keys _ _ _ _ Hb). by apply elem_of_list_fmap_1. }
    intros b. eapply (goes_bind _ _ _ (λ _, shape bl zs)); [eapply goes_weak; [apply (goes_keeps bl zs c), keeps_take|by intros ? [? _]|done]|].
    intros x. apply goes_keeps, keeps_construct. }
  intros []. eapply (goes_bind _ _ _ (λ _, shape bl (<[f := S (ck_size d)]> zs))).
  { intros a [<- <-]. unfold on_chunk. destruct (ar_chunks a !! f) as [k|]; [|done]. cbn [ck_set_size]. unfold ck_set_size.
    split; [done|]. unfold ar_with_chunks. cbn [ar_chunks]. by rewrite list_fmap_insert. }
  intros []. apply goes_ret. intros a Ha. split; [lia|done].
Qed.

(** swap_erase that moves a row. *)
Lemma goes_erase bl zs c l i n m cs mx eb : bl_ok U cs mx bl → sm_abs bl !! u_ent U = Some eb → zs !! c = Some n → l = length zs - 1 → zs !! l = Some (S m) →
  n ≠ 1 → i ≠ n - 1 → m ≠ 0 →
  goes (shape bl zs) (ar_swap_erase U c i) (λ _ a, shape bl (<[l := m]> zs) a ∧ ∃ k, ar_chunks a !! l = Some k ∧ ck_mem k !! addr eb m = None).
Proof.
  intros Hb Heb Hc El Hl Hn1 Hni Hm. unfold ar_swap_erase.
  eapply goes_bind; [apply (goes_get _ (λ a0 a, a0 = a ∧ shape bl zs a)); done|]. intros a0.
  apply (goes_know (shape bl zs a0)); [by intros a [<- ?]|]; intros E0. pose proof (shape_len _ _ _ E0) as El0. rewrite El0, <- El.
  eapply (goes_bind _ _ _ (λ _ a, shape bl (<[l := m]> zs) a ∧ ∃ k, ar_chunks a !! l = Some k ∧ ck_mem k !! addr eb m = None)).
  - apply (goes_weak (shape bl zs) _ _ (λ _ a, shape bl (<[l := m]> zs) a ∧ ∃ k, ar_chunks a !! l = Some k ∧ ck_mem k !! addr eb m = None)); [|by intros ? [_ ?]|done]. unfold ck_swap_erase.
    eapply goes_bind; [apply (goes_get _ (λ a0 a, a0 = a ∧ shape bl zs a)); done|]. intros a1.
    apply (goes_know (ar_blocks a1 = bl)); [by intros a [<- [? _]]|]; intros E1. rewrite E1.
    eapply (goes_bind _ _ _ (λ k a, shape bl zs a ∧ ar_chunks a !! c = Some k)); [eapply goes_weak; [apply (goes_chunk bl zs c)| |]; [by intros ? [_ ?]|done]|]. intros s.
    destruct (decide (ck_size s = n)) as [<-|Hn]; [|intros a [Ha Hs]; rewrite (shape_at _ _ _ _ _ Ha Hs) in Hc; congruence].
    destruct (decide (ck_size s ≤ i)); [apply goes_ub|]. rewrite decide_False by tauto.
    eapply (goes_bind _ _ _ (λ k a, shape bl zs a ∧ ar_chunks a !! l = Some k)); [eapply goes_weak; [apply (goes_chunk bl zs l)| |]; [by intros ? [? _]|done]|]. intros o.
    destruct (decide (ck_size o = S m)) as [Eo|Ho]; [|intros a [Ha Hs]; rewrite (shape_at _ _ _ _ _ Ha Hs) in Hl; congruence].
    destruct (ck_empty o); [apply goes_ub|].
    eapply (goes_bind _ _ _ (λ _, shape bl zs)); [eapply goes_weak; [apply (goes_at (shape bl zs) cs mx bl (u_ent U) Hb); by left|by intros ? [? _]|by intros ? ? [? _]]|]. intros eb'.
    eapply (goes_bind _ _ _ (λ _, shape bl zs)); [apply goes_keeps, keeps_read|]. intros [h|v]; [|apply goes_ub].
    eapply (goes_bind _ _ _ (λ _, shape bl zs)).
    { apply goes_forM. intros e He. eapply (goes_bind _ _ _ (λ _, shape bl zs)); [apply goes_find|]. intros ob.
      eapply (goes_bind _ _ _ (λ _, shape bl zs)); [apply goes_keeps, keeps_take|]. intros x. apply goes_keeps, keeps_assign. }
    intros []. eapply goes_bind; [by apply (goes_pop bl zs l m cs mx eb Hb Heb Hl)|]. intros []. by apply goes_ret.
  - intros mv. eapply (goes_bind _ _ _ (λ k a, ck_size k = m ∧ shape bl (<[l := m]> zs) a ∧ ∃ k, ar_chunks a !! l = Some k ∧ ck_mem k !! addr eb m = None)).
    + intros a [Ha Hk]. pose proof (goes_chunk _ _ l a Ha) as H. pose proof Ha as [_ Hz]. unfold on_chunk, get in *. destruct (ar_chunks a !! l) as [k|] eqn:E; [|done].
      destruct H as [H1 H2]. assert (ar_with_chunks a (<[l := k]> (ar_chunks a)) = a) as Ea by (rewrite list_insert_id by done; by destruct a). rewrite Ea.
      split; [|split; [done|by rewrite E]]. pose proof (shape_at _ _ _ _ _ Ha E) as Es. rewrite list_lookup_insert in Es by (by eapply lookup_lt_Some). by injection Es.
    + intros k. destruct (decide (ck_size k = m)) as [Ek|]; [|intros a [? _]; done]. unfold ck_empty. rewrite bool_decide_eq_false_2 by lia. cbn [andb].
      eapply goes_bind; [by apply (goes_ret _ tt (λ _ a, shape bl (<[l := m]> zs) a ∧ ∃ k, ar_chunks a !! l = Some k ∧ ck_mem k !! addr eb m = None)); intros a [_ ?]|].
      intros []. by apply goes_ret.
Qed.

(** The new place of the entity has no object. *)
Lemma goes_self ar cs rowss c i k k' eb : ar_repr U false ar cs rowss → sm_abs (ar_blocks ar) !! u_ent U = Some eb →
  ar_chunks ar !! c = Some k → last (ar_chunks ar) = Some k' → ck_full k' = false → ck_empty k' = false →
  (S c = length (ar_chunks ar) ∨ S i < ck_size k) →
  goes (eq ar) (ar_move_self U c i) (λ r a, ar_blocks a = ar_blocks ar ∧ r.1.2 = ck_size k' ∧
    ∃ k1, ar_chunks a !! r.1.1 = Some k1 ∧ ck_size k1 = r.1.2 ∧ ck_mem k1 !! addr eb r.1.2 = None).
Proof.
  intros Hrep Heb Hk Hk' Hf He Hor. pose proof (ap_bl _ _ _ _ _ Hrep) as Hb. set (bl := ar_blocks ar) in *. set (zs := ck_size <$> ar_chunks ar).
  rewrite last_lookup in Hk'. rewrite <- Nat.sub_1_r in Hk'. set (l := length (ar_chunks ar) - 1) in *.
  assert (zs !! c = Some (ck_size k)) as Zc by (unfold zs; by rewrite list_lookup_fmap, Hk).
  assert (zs !! l = Some (ck_size k')) as Zl by (unfold zs; by rewrite list_lookup_fmap, Hk').
  unfold ck_empty in He. apply bool_decide_eq_false in He.
  unfold ar_move_self. eapply (goes_bind _ _ _ (λ f a, f = l ∧ shape bl zs a)).
  { intros a <-. unfold ar_ensure_free. rewrite last_lookup, <- Nat.sub_1_r. fold l. rewrite Hk', Hf. done. }
  intros f. destruct (decide (f = l)) as [->|]; [|intros a [? _]; done].
  eapply (goes_bind _ _ _ (λ row a, i < ck_size k ∧ row = ck_size k' ∧ shape bl (<[l := S (ck_size k')]> zs) a)); [eapply goes_weak; [by apply (goes_move bl zs c l i (ck_size k) (ck_size k') cs (ar_max ar))|by intros ? [_ ?]|done]|].
  intros row. destruct (decide (i < ck_size k ∧ row = ck_size k')) as [[Hi ->]|]; [|intros a (? & ? & _); tauto].
  assert (l < length zs) as Hlt by (by eapply lookup_lt_Some).
  eapply (goes_bind _ _ _ (λ _ a, shape bl (<[l := ck_size k']> (<[l := S (ck_size k')]> zs)) a ∧ ∃ k, ar_chunks a !! l = Some k ∧ ck_mem k !! addr eb (ck_size k') = None)).
  { apply (goes_weak (shape bl (<[l := S (ck_size k')]> zs)) _ _ (λ _ a, shape bl (<[l := ck_size k']> (<[l := S (ck_size k')]> zs)) a ∧ ∃ k, ar_chunks a !! l = Some k ∧ ck_mem k !! addr eb (ck_size k') = None)); [|by intros ? (_ & _ & ?)|done].
    destruct (decide (c = l)) as [->|Hcl].
    - rewrite Hk in Hk'. injection Hk' as <-. eapply (goes_erase bl _ l l i (S (ck_size k)) _ cs (ar_max ar)); try done; try lia.
      + by apply list_lookup_insert.
      + rewrite insert_length. unfold zs, l. by rewrite fmap_length.
      + by apply list_lookup_insert.
    - pose proof (lookup_lt_Some _ _ _ Hk). eapply (goes_erase bl _ c l i (ck_size k) _ cs (ar_max ar)); try done; try lia.
      + by rewrite list_lookup_insert_ne by done.
      + rewrite insert_length. unfold zs, l. by rewrite fmap_length.
      + by apply list_lookup_insert. }
  intros mv a (Ha & k1 & E1 & E2). unfold bind, get, ret. cbn [fst snd].
  pose proof (shape_len _ _ _ Ha) as El. rewrite !insert_length in El. unfold zs in El. rewrite fmap_length in El. rewrite El. fold l. split; [apply Ha|]. split; [done|].
  exists k1. split; [done|]. split; [|done]. pose proof (shape_at _ _ _ _ _ Ha E1) as Es. rewrite list_lookup_insert in Es by (by rewrite insert_length). by injection Es.
Qed.

Lemma ensure_same r hp (a : nat) ar : st_inv U false r hp → rg_heap r !! a = Some ar →
  ∃ r', rg_ensure U (ar_comps ar) r = (r', Ok a) ∧ rg_heap r' = rg_heap r ∧ rg_pool r' = rg_pool r ∧ rg_locs r' = rg_locs r.
Proof.
  intros Hs Ha. pose proof (si_t2 _ _ _ _ Hs a ar Ha) as Ht. unfold rg_ensure, rg_ensure_key.
  destruct (index_spec bs_hash None (rg_table r) (ms_ids (ar_comps ar)) (si_twf _ _ _ _ Hs)) as (t & i & Hidx & Htwf & Habs & Hfind).
  rewrite Hidx. rewrite Ht in Habs. pose proof (find_spec bs_hash t (ms_ids (ar_comps ar)) Htwf) as Hf. rewrite Habs, Ht in Hf. destruct Hf as (j & Hj & Hd).
  rewrite Hfind in Hj. injection Hj as <-. rewrite Hd, Ha. unfold bs_eqb. rewrite bool_decide_eq_true_2 by done. by eexists.
Qed.

(** move into a placeholder of the same registry: wherever the entity is stored but at the end of a chunk, and if the last
    chunk has room, the handle of the placeholder is written to a row that was just given up. *)
Theorem C84_move_refuted n r s h ph : reached U n r s → below_wrap (2 * S n) → is_Some (sr_world s !! h) → stale_place r h →
  (rg_move_self U h ph r).2 = UB.
Proof.
  intros Hr Hbw [m Hw] (l & a & ar & k & k' & El & Ea & Har & Hk & Hk' & Hf & He & Hor).
  destruct (reached_ri U HU _ _ _ Hr (bw_half _ Hbw)) as (iss & hp & [_ H _]).
  destruct (loc_in U H h m Hw) as (a1 & p1 & cs1 & rowss1 & rows1 & El1 & _). rewrite El1 in El. cbn [snd] in El. injection El as <-.
  cbn [loc_of lc_arch lc_chunk lc_row fst snd] in *. injection Ea as ->.
  pose proof (st_weaken _ _ _ _ (rv_st _ _ _ _ _ _ _ _ _ H)) as Hst.
  destruct (Forall2_lookup_l _ _ _ _ _ (si_heap _ _ _ _ Hst) Har) as ([cs rowss] & _ & Hrep). cbn [fst snd] in Hrep.
  pose proof (ap_bl _ _ _ _ _ Hrep) as Hb. destruct (bl_lookup U Hb (u_ent U)) as [eb Heb]; [by left|].
  destruct (ensure_same _ _ _ _ Hst Har) as (r1 & E1 & Eh1 & Ep1 & _).
  unfold rg_move_self. rewrite (bind_ok _ _ _ _ _ El1). cbn [loc_of lc_arch lc_chunk lc_row fst snd].
  rewrite (bind_ok _ _ _ _ _ (rg_arch_run _ _ _ Har)), (bind_ok _ _ _ _ _ E1).
  pose proof (goes_self ar cs rowss p1.1 p1.2 k k' eb Hrep Heb Hk Hk' Hf He Hor ar eq_refl) as Hg.
  destruct (ar_move_self U p1.1 p1.2 ar) as [ar2 [[[c2 i2] mv]|e|]] eqn:E2; [|done|].
  2: { unfold bind at 1, on_arch. rewrite Eh1, Har, E2. done. }
  cbn [fst snd] in Hg. destruct Hg as (Ebl & _ & k1 & Hk1 & _ & Hno).
  set (r2 := rg_set_heap r1 (<[a := ar2]> (rg_heap r1))).
  assert (on_arch (Some a) (ar_move_self U p1.1 p1.2) r1 = (r2, Ok (c2, i2, mv))) as E3 by (unfold on_arch, r2; by rewrite Eh1, Har, E2).
  rewrite (bind_ok _ _ _ _ _ E3). cbn [fst snd]. clear E3.
  assert (rg_heap r2 !! a = Some ar2) as H2 by (unfold r2; cbn [rg_set_heap rg_heap]; rewrite Eh1; apply list_lookup_insert; by eapply lookup_lt_Some).
  assert (∀ {X Y} (m1 : M registry X) (f : X → M registry Y) q, match m1 q with (q', Ok x) => (f x q').2 = UB | (_, Throw _) => False | (_, UB) => True end → (bind m1 f q).2 = UB) as Hb1.
  { intros X Y m1 f q Hq. unfold bind. by destruct (m1 q) as [q' [x|e|]]. }
  apply Hb1. unfold rg_remove_location. destruct (sm_erase _ _ _) as [[m1 u1]|]; [|done].
  apply Hb1. set (r3 := rg_set_locs r2 m1).
  assert (match (match mv with Some g => if decide (g = h) then ret tt else rg_set_location (h_id g) (loc_of (a, p1)) | None => ret tt end) r3 with
    (q, Ok _) => rg_heap q = rg_heap r2 | (_, Throw _) => False | (_, UB) => True end) as H3.
  { destruct mv as [g|]; [|done]. destruct (decide (g = h)); [done|]. unfold rg_set_location. by destruct (sm_assign _ _ _ _ _). }
  destruct ((match mv with Some g => if decide (g = h) then ret tt else rg_set_location (h_id g) (loc_of (a, p1)) | None => ret tt end) r3) as [q [u|e|]]; [|done|done].
  apply Hb1. unfold rg_recycle. apply Hb1.
  assert (rg_heap (rg_set_pool q (pool_recycle (rg_pool q) h)) !! a = Some ar2) as H4 by (cbn [rg_set_pool rg_heap]; by rewrite H3).
  unfold on_arch. rewrite H4. unfold ar_put_entity, bind at 1, get. rewrite Ebl. unfold blk_at, bind. rewrite (sm_at_spec w32), Heb by apply Hb. unfold ret at 1.
  unfold on_chunk. rewrite Hk1. unfold assign_obj. by rewrite Hno.
Qed.
End props.

(** * Examples *)
(** The run before sync and the placeholder: an entity with the component, in a chunk with room. *)
Definition ops84 : list sop := At 0 <$> [OCreate [(1%N, Val 10)]; OCreate [(1%N, Val 20)]; OReserve; OSync].
Definition rs84 := (default ([], []) (prog U0 ops84 [rg_init] [sreg_init])).1.
Definition ss84 := (default ([], []) (prog U0 ops84 [rg_init] [sreg_init])).2.
Definition r84 := default rg_init (rs84 !! 0). Definition s84 := default sreg_init (ss84 !! 0).
Example C84_ex_reached : reached U0 4 r84 s84.
Proof.
  exists rs84, ss84, 0. split; [|by split; vm_compute]. apply (prog_reach U0 U0_wf 1 ops84); [vm_compute; done|].
  unfold rs84, ss84. change [rg_init] with (replicate 1 rg_init). change [sreg_init] with (replicate 1 sreg_init).
  destruct (prog _ _ _ _) as [[??]|] eqn:E; [done|]. by vm_compute in E.
Qed.
Example C84_ex_world : is_Some (sr_world s84 !! Handle 0 0).
Proof. apply not_eq_None_Some. by vm_compute. Qed.
Example C84_ex_place : stale_place r84 (Handle 0 0).
Proof.
  unfold stale_place. destruct (rg_location (Handle 0 0) r84).2 as [l|e|] eqn:El; [|by vm_compute in El|by vm_compute in El].
  assert (l = Loc (Some 0) 0 0) as -> by (vm_compute in El; congruence).
  destruct (rg_heap r84 !! 0) as [ar|] eqn:Ear; [|by vm_compute in Ear].
  assert (option_map (λ k, (ck_full k, ck_empty k)) (ar ← rg_heap r84 !! 0; last (ar_chunks ar)) = Some (false, false)) as H1 by (by vm_compute).
  assert ((length ∘ ar_chunks) <$> rg_heap r84 !! 0 = Some 1) as H2 by (by vm_compute).
  rewrite Ear in H1, H2. cbn in H1, H2. injection H2 as H2. destruct (ar_chunks ar) as [|k [|]] eqn:Ek; [discriminate H2| |discriminate H2]. cbn in H1. injection H1 as H1 H3.
  exists (Loc (Some 0) 0 0), 0, ar, k, k. rewrite Ek. cbn [lc_arch lc_chunk lc_row]. split_and!; [reflexivity|reflexivity|exact Ear|reflexivity|reflexivity|exact H1|exact H3|left; reflexivity].
Qed.

(** The chunks are full: the placeholder becomes the handle of another entity, whose components it shows; the moved entity
    is gone, but views still visit its row. *)
Theorem C84_other_refuted : ∃ a b c d ph : handle, calls_move_self U0
    [OCreate [(6%N, Val 10)]; OCreate [(6%N, Val 20)]; OCreate [(6%N, Val 30)]; OCreate [(6%N, Val 40)]; OReserve; OSync] a ph
    [OGet ph 6%N; OGet c 6%N; OGet a 6%N; OSize; all_entities] =
  ([Ok (RHandle a); Ok (RHandle b); Ok (RHandle c); Ok (RHandle d); Ok (RHandle ph); Ok RUnit], Ok ph,
   [Ok (RCell (CVal (Val 30))); Ok (RCell (CVal (Val 30))); Throw EntityNotFound; Ok (RNum 4);
    Ok (RCalls [[CEnt a]; [CEnt b]; [CEnt ph]; [CEnt d]])]).
Proof. exists (Handle 0 0), (Handle 1 0), (Handle 2 0), (Handle 3 0), (Handle 4 0). by vm_compute. Qed.

(** The last entity of an earlier chunk is moved as claimed. *)
Example C84_ex_good : ∃ a b c ph : handle, calls_move_self U0
    [OCreate [(6%N, Val 10)]; OCreate [(6%N, Val 20)]; OCreate [(6%N, Val 30)]; OReserve; OSync] b ph
    [OGet ph 6%N; OGet b 6%N; OGet a 6%N; OGet c 6%N; OSize; all_entities] =
  ([Ok (RHandle a); Ok (RHandle b); Ok (RHandle c); Ok (RHandle ph); Ok RUnit], Ok ph,
   [Ok (RCell (CVal (Val 20))); Throw EntityNotFound; Ok (RCell (CVal (Val 10))); Ok (RCell (CVal (Val 30))); Ok (RNum 3);
    Ok (RCalls [[CEnt a]; [CEnt c]; [CEnt ph]])]).
Proof. exists (Handle 0 0), (Handle 1 0), (Handle 2 0), (Handle 3 0). by vm_compute. Qed.

Print Assumptions C84_move_refuted.
Print Assumptions C84_other_refuted.
