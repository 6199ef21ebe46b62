(** Chunks but the last stay full when no entity is taken from the last row of an inner chunk. *)
From Verif Require Import Base Bits Layout PropLayout HandlePool HandleSpec HandlePoolProofs SparseMap SparseMapProofs
  HashTable HashTableProofs HashTableMap Bitset BitsetProofs ComponentSet ComponentSetProofs
  Chunk ChunkProofs Archetype ArchetypeProofs Registry RegistryStore RegistryProofs View ViewProofs RegSpec RegSpecProofs RegTrap RegRun ChunkCount ChunkCountProofs.
Ltac Zify.zify_post_hook ::= Z.div_mod_to_equations.

Definition packed (a : archetype) : Prop := ∀ c k, ar_chunks a !! c = Some k → S c < length (ar_chunks a) → ck_size k = ck_max k.
Definition tail_in (a : archetype) (c i : nat) : Prop := ∃ k, ar_chunks a !! c = Some k ∧ S i = ck_size k ∧ S c < length (ar_chunks a).

(** The same numbers of rows. *)
Definition same (k k' : chunk) : Prop := (ck_size k', ck_max k') = (ck_size k, ck_max k).
Global Instance same_pre : PreOrder same.
Proof. split; [done|]. intros ???. unfold same. congruence. Qed.
Definition rws (a : archetype) : list (nat * nat) := (λ k, (ck_size k, ck_max k)) <$> ar_chunks a.
Definition shape (a b : archetype) : Prop := rws b = rws a.
Global Instance shape_pre : PreOrder shape.
Proof. split; [done|]. intros ???. unfold shape. congruence. Qed.
Lemma shape_len a b : shape a b → length (ar_chunks b) = length (ar_chunks a).
Proof. intros E. apply (f_equal length) in E. unfold rws in E. by rewrite !fmap_length in E. Qed.
Lemma shape_at a b c k : shape a b → ar_chunks b !! c = Some k → ∃ k', ar_chunks a !! c = Some k' ∧ same k k'.
Proof.
  intros E Hc. assert (rws b !! c = Some (ck_size k, ck_max k)) as H by (unfold rws; by rewrite list_lookup_fmap, Hc).
  rewrite E in H. unfold rws in H. rewrite list_lookup_fmap in H. destruct (ar_chunks a !! c) as [k'|]; [|done]. cbn in H. injection H as H. exists k'. unfold same. split; congruence.
Qed.
Lemma shape_packed a b : shape a b → packed a → packed b.
Proof.
  intros Hs Hp c k Hc Hl. destruct (shape_at _ _ _ _ Hs Hc) as (k' & Hk & [= E1 E2]). rewrite (shape_len _ _ Hs) in Hl. rewrite <- E1, <- E2. by apply (Hp c).
Qed.
Lemma shape_tail a b c i : shape a b → tail_in b c i → tail_in a c i.
Proof.
  intros Hs (k & Hk & Hi & Hl). destruct (shape_at _ _ _ _ Hs Hk) as (k' & Hk' & [= E1 E2]). exists k'. rewrite E1. rewrite (shape_len _ _ Hs) in Hl. done.
Qed.

Lemma keeping_same {S X} (R : S → S → Prop) `{!PreOrder R} (m : M S X) : (∀ s, (m s).1 = s) → keeping R m.
Proof. intros E s. by rewrite E. Qed.
Lemma same_read off : keeping same (read_obj off). Proof. intros k. unfold read_obj. by destruct (_ !! _). Qed.
Lemma same_assign off c : keeping same (assign_obj off c). Proof. intros k. unfold assign_obj. by destruct (_ !! _). Qed.
Lemma same_take off : keeping same (take_obj off).
Proof. apply keeping_bind; [apply _|apply same_read|]. intros c. apply keeping_bind; [apply _|apply same_assign|done]. Qed.
Lemma same_construct off c : keeping same (construct_at off c). Proof. intros k. done. Qed.
Lemma blk_same {S} (s : S) bl c : (blk_at bl c s).1 = s. Proof. unfold blk_at. by destruct (sm_at bl c) as [[]|]. Qed.
Lemma fetch_same {S} (s : S) bl c i : (fetch_pointer bl c i s).1 = s.
Proof. unfold fetch_pointer. by destruct (sm_at bl c) as [[]|]. Qed.
Lemma blkf_same {S} (s : S) bl c : (blk_find bl c s).1 = s.
Proof. unfold blk_find. repeat (case_match; try done). unfold of_opt. by destruct (snd <$> _). Qed.

Definition same1 (k k' : chunk * chunk) : Prop := same k.1 k'.1.
Global Instance same1_pre : PreOrder same1.
Proof. unfold same1. split; [done|]. intros ???. apply transitivity. Qed.
Lemma same1_fst {X} (m : M chunk X) : keeping same m → keeping same1 (on_fst m).
Proof. intros Hm s. unfold on_fst. specialize (Hm s.1). by destruct (m s.1). Qed.
Lemma same1_snd {X} (m : M chunk X) : keeping same1 (on_snd m).
Proof. intros s. unfold on_snd. by destruct (m s.2). Qed.
Lemma ck_move_same sb db i : keeping same1 (ck_move sb db i).
Proof.
  apply keeping_bind; [apply _|by apply same1_fst|]. intros s. apply keeping_bind; [apply _|apply same1_snd|]. intros d.
  destruct (decide _); [done|]. destruct (ck_full d); [done|]. apply keeping_bind; [apply _| |].
  - apply keeping_forM; [apply _|]. intros e. destruct (sm_contains _ _) as [[]|]; [|done|done].
    apply keeping_bind; [apply _| |].
    + unfold blk_at. by destruct (sm_at _ _) as [[]|].
    + intros b. apply keeping_bind; [apply _|apply same1_fst, same_take|]. intros x. apply same1_snd.
  - intros _. apply keeping_bind; [apply _|apply same1_snd|done].
Qed.

Lemma shape_set a c k k' : ar_chunks a !! c = Some k → same k k' → shape a (ar_with_chunks a (<[c := k']> (ar_chunks a))).
Proof.
  intros E Hm. unfold shape, rws. cbn. apply list_eq. intros j. rewrite !list_lookup_fmap. destruct (decide (j = c)) as [->|].
  - rewrite list_lookup_insert, E by (by eapply lookup_lt_Some). cbn. by rewrite Hm.
  - by rewrite list_lookup_insert_ne.
Qed.
Lemma shape_chunk {X} i (m : M chunk X) : keeping same m → keeping shape (on_chunk i m).
Proof.
  intros Hm a. unfold on_chunk. destruct (ar_chunks a !! i) as [k|] eqn:E; [|done]. specialize (Hm k). destruct (m k) as [k' o]. cbn [fst] in *.
  by apply (shape_set _ _ k).
Qed.

(** A change of the last chunk alone. *)
Lemma packed_last {X} i (m : M chunk X) a : S i = length (ar_chunks a) → packed a → packed (on_chunk i m a).1.
Proof.
  intros Hi Hp. unfold on_chunk. destruct (ar_chunks a !! i) as [k|] eqn:E; [|done]. destruct (m k) as [k' o]. cbn [fst].
  intros c x Hc Hl. cbn in *. rewrite insert_length in Hl. rewrite list_lookup_insert_ne in Hc by lia. by apply (Hp c).
Qed.
Lemma free_packed a : packed a → packed (ar_ensure_free a).1 ∧ ∀ f, (ar_ensure_free a).2 = Ok f → S f = length (ar_chunks (ar_ensure_free a).1).
Proof.
  intros Hp. unfold ar_ensure_free. destruct (last (ar_chunks a)) as [k|] eqn:El; [|done].
  assert (ar_chunks a ≠ []) as Hne by (by intros E; rewrite E in El).
  destruct (ck_full k) eqn:Ef; cbn [fst snd].
  - split; [|intros f [= <-]; cbn; rewrite app_length; cbn; lia]. intros c x Hc Hl. cbn in *. rewrite app_length in Hl. cbn in Hl.
    rewrite lookup_app_l in Hc by lia. destruct (decide (S c < length (ar_chunks a))) as [|Hn]; [by apply (Hp c)|].
    rewrite last_lookup in El. replace (pred (length (ar_chunks a))) with c in El by lia. rewrite Hc in El. injection El as <-.
    unfold ck_full in Ef. by apply bool_decide_eq_true in Ef.
  - split; [done|]. intros f [= <-]. destruct (ar_chunks a); [done|]. cbn. lia.
Qed.

Lemma bind_keeps {S X Y} (P : S → Prop) (m : M S X) (f : X → M S Y) s :
  P (m s).1 → (∀ s1 x, m s = (s1, Ok x) → P s1 → P (f x s1).1) → P (bind m f s).1.
Proof. intros H1 H2. unfold bind. destruct (m s) as [s1 [x|e|]]; cbn [fst] in *; [|done|done]. by apply H2. Qed.

Section packed.
Context (U : universe).

Lemma emplace_packed h args a : packed a → packed (ar_emplace U h args a).1.
Proof.
  intros Hp. destruct (free_packed a Hp) as [Hp1 Hf]. unfold ar_emplace. apply bind_keeps; [done|]. intros a1 f E _. rewrite E in Hp1, Hf. cbn [fst snd] in *.
  specialize (Hf _ eq_refl). apply bind_keeps; [done|]. intros ? ? [= <- <-] _.
  assert (shape a1 (on_chunk f get a1).1) as Hs by (by apply (shape_chunk f get)).
  apply bind_keeps; [by apply (shape_packed _ _ Hs)|]. intros a2 k Ek Hp2. rewrite Ek in Hs. cbn [fst] in Hs.
  apply bind_keeps; [|by intros ? ? _]. apply packed_last; [|done]. by rewrite (shape_len _ _ Hs).
Qed.
Lemma copy_packed x c i a : packed a → packed (ar_copy U x c i a).1.
Proof.
  intros Hp. destruct (free_packed a Hp) as [Hp1 Hf]. unfold ar_copy. apply bind_keeps; [done|]. intros a1 f E _. rewrite E in Hp1, Hf. cbn [fst snd] in *.
  specialize (Hf _ eq_refl). apply bind_keeps; [done|]. intros ? ? [= <- <-] _.
  unfold of_opt. destruct (ar_chunks x !! c); [|done]. apply bind_keeps; [done|]. intros ? ? [= <- <-] _.
  apply bind_keeps; [|by intros ? ? _]. by apply packed_last.
Qed.

Lemma ck_erase_packed c i a : packed a → ¬ tail_in a c i → packed (ck_swap_erase U c (length (ar_chunks a) - 1) i a).1.
Proof.
  intros Hp Ht. unfold ck_swap_erase. apply bind_keeps; [done|]. intros ? ? [= <- <-] _.
  assert (shape a (on_chunk c get a).1) as Hs by (by apply (shape_chunk c get)).
  apply bind_keeps; [by apply (shape_packed _ _ Hs)|]. intros a1 k Ek Hp1.
  assert (ar_chunks a !! c = Some k ∧ a1 = a) as [Hk ->].
  { unfold on_chunk in Ek. destruct (ar_chunks a !! c) as [k0|] eqn:E; [|done]. cbn in Ek. injection Ek as <- <-. split; [done|].
    unfold ar_with_chunks. rewrite list_insert_id by done. by destruct a. }
  clear Ek Hs Hp1. destruct (decide (ck_size k ≤ i)) as [|Hi]; [done|]. destruct (decide _) as [Hd|Hd].
  - apply bind_keeps; [|by intros ? ? _]. apply packed_last; [|done]. apply lookup_lt_Some in Hk as Hl.
    destruct (decide (S c < length (ar_chunks a))); [|lia]. destruct Ht. exists k. split; [done|]. lia.
  - apply lookup_lt_Some in Hk as Hl.
    assert (∀ Y (m : M archetype Y) (g : Y → M archetype (option handle)) a1, shape a a1 → keeping shape m →
      (∀ a2 y, shape a a2 → packed (g y a2).1) → packed (bind m g a1).1) as step.
    { intros Y m g a1 Hs Hm Hg. pose proof (Hm a1) as Hs2. assert (shape a (m a1).1) as Hs3 by (by etrans).
      apply bind_keeps; [by apply (shape_packed _ _ Hs3)|]. intros a2 y E2 _. rewrite E2 in Hs3. by apply Hg. }
    apply step; [done|by apply shape_chunk|]. intros a1 o Hs1. destruct (ck_empty o); [by apply (shape_packed _ _ Hs1)|].
    apply step; [done|apply keeping_same; [apply _|intros; apply blk_same]|]. intros a2 eb Hs2.
    apply step; [done|apply shape_chunk, same_read|]. intros a3 e Hs3. destruct e as [h|]; [|by apply (shape_packed _ _ Hs3)].
    apply step; [done| |].
    + apply keeping_forM; [apply _|]. intros e. apply keeping_bind; [apply _|apply keeping_same; [apply _|intros; apply blkf_same]|]. intros ob.
      apply keeping_bind; [apply _|apply shape_chunk, same_take|]. intros x. apply shape_chunk, same_assign.
    + intros a4 _ Hs4. apply bind_keeps; [|by intros ? ? _]. apply packed_last; [|by apply (shape_packed _ _ Hs4)]. rewrite (shape_len _ _ Hs4). lia.
Qed.
Lemma erase_packed c i a : packed a → ¬ tail_in a c i → packed (ar_swap_erase U c i a).1.
Proof.
  intros Hp Ht. unfold ar_swap_erase. apply bind_keeps; [done|]. intros ? ? [= <- <-] _.
  apply bind_keeps; [by apply ck_erase_packed|]. intros a1 mv _ Hp1.
  apply bind_keeps; [apply (shape_packed a1); [by apply (shape_chunk _ get)|done]|]. intros a2 k _ Hp2.
  apply bind_keeps; [|by intros ? ? _]. destruct (_ && _); [|done]. unfold ar_drop_chunk. destruct (last (ar_chunks a2)) as [k2|] eqn:El; [|done].
  destruct (ck_destruct _ _) as [k' o]. cbn [fst]. intros d x Hd Hl. cbn in *.
  apply last_Some in El as [ks El]. unfold pop_back in *. rewrite El in *. replace (length (ks ++ [k2]) - 1) with (length ks) in * by (rewrite app_length; cbn; lia). rewrite take_app in *.
  apply (Hp2 d); rewrite El; [by apply lookup_app_l_Some|]. rewrite app_length. lia.
Qed.

Lemma move_packed c i a b : packed a → packed b → ¬ tail_in a c i →
  packed (ar_move U c i (a, b)).1.1 ∧ packed (ar_move U c i (a, b)).1.2.
Proof.
  intros Ha Hb Ht. pose (P := λ x : archetype * archetype, packed x.1 ∧ packed x.2). change (P (ar_move U c i (a, b)).1).
  destruct (free_packed b Hb) as [Hp1 Hf]. unfold ar_move. apply bind_keeps.
  { unfold on_snd. cbn [fst snd]. destruct (ar_ensure_free b). done. }
  intros [a1 b1] f E _. unfold on_snd in E. cbn [fst snd] in E. destruct (ar_ensure_free b) as [b' o]. injection E as <- <- ->. cbn [fst snd] in *.
  specialize (Hf _ eq_refl). apply bind_keeps; [done|]. intros ? ? [= <- <-] _. apply bind_keeps; [done|]. intros ? ? [= <- <-] _. cbn [fst snd].
  match goal with |- P (bind ?m _ _).1 => set (mv := m) end.
  assert (shape a (mv (a, b')).1.1 ∧ packed (mv (a, b')).1.2) as [Hs Hp2].
  { unfold mv. cbn [fst snd]. destruct (ar_chunks a !! c) as [k|] eqn:Ek; [|done]. destruct (ar_chunks b' !! f) as [k2|] eqn:Ek2; [|done].
    pose proof (ck_move_same (ar_blocks a) (ar_blocks b') i (k, k2)) as Hm. destruct (ck_move _ _ _ _) as [[k' k2'] o]. cbn [fst snd] in *. unfold same1 in Hm. cbn [fst] in Hm.
    split; [by apply (shape_set _ _ k)|]. pose proof (packed_last f (λ k, (k2', Ok tt)) b' Hf Hp1) as H. unfold on_chunk in H. by rewrite Ek2 in H. }
  apply bind_keeps; [split; [by apply (shape_packed a)|done]|]. intros [a2 b2] row E _. rewrite E in Hs, Hp2. cbn [fst snd] in *.
  assert (packed (ar_swap_erase U c i a2).1) as He.
  { apply erase_packed; [by apply (shape_packed a)|]. intros H. by apply Ht, (shape_tail _ _ _ _ Hs). }
  apply bind_keeps. { unfold on_fst. cbn [fst snd]. destruct (ar_swap_erase U c i a2). done. }
  intros s1 x _ HP. done.
Qed.
End packed.

Definition rpacked (r : registry) : Prop := ∀ a ar, rg_heap r !! a = Some ar → packed ar.
Definition more (r r' : registry) : Prop := (∀ a ar, rg_heap r !! a = Some ar → rg_heap r' !! a = Some ar) ∧ (rpacked r → rpacked r').
Definition kept (r r' : registry) : Prop := rpacked r → rpacked r'.
Global Instance kept_pre : PreOrder kept. Proof. split; [by intros r H|]. intros x y z H1 H2 H. apply H2, H1, H. Qed.
Global Instance more_pre : PreOrder more. Proof. split; [done|]. intros ??? [??] [??]. split; auto. Qed.
Lemma more_kept {X} (m : M registry X) : keeping more m → keeping kept m.
Proof. intros H r. exact (proj2 (H r)). Qed.

Lemma keptE {X} (m : M registry X) r : rpacked r → keeping kept m → rpacked (m r).1.
Proof. intros Hp Hm. by apply Hm. Qed.
Lemma kept_id {X} (m : M registry X) : (∀ r, (m r).1 = r) → keeping kept m.
Proof. intros E. apply keeping_same; [apply _|done]. Qed.
Local Hint Extern 0 (keeping kept _) => (apply kept_id; reflexivity) : core.

Lemma heap_more r r' : rg_heap r' = rg_heap r → more r r'.
Proof. intros E. split; [by rewrite E|]. intros H a ar. rewrite E. apply H. Qed.
Lemma set_location_more id l : keeping more (rg_set_location id l).
Proof. intros r. apply heap_more. unfold rg_set_location. by destruct (sm_assign _ _ _ _ _). Qed.
Lemma remove_location_more id : keeping more (rg_remove_location id).
Proof. intros r. apply heap_more. unfold rg_remove_location. by destruct (sm_erase _ _ _) as [[]|]. Qed.
Lemma allocate_more : keeping more rg_allocate.
Proof. intros r. apply heap_more. unfold rg_allocate. by destruct (pool_create _). Qed.
Lemma reserve_more : keeping more rg_reserve.
Proof. intros r. apply heap_more. unfold rg_reserve. by destruct (pool_reserve _). Qed.
Lemma recycle_more h : keeping more (rg_recycle h). Proof. intros r. by apply heap_more. Qed.
Lemma sync_more : keeping more rg_sync. Proof. intros r. by apply heap_more. Qed.
Lemma location_same h r : (rg_location h r).1 = r.
Proof. unfold rg_location. destruct (rg_alive r h); [|done]. by destruct (sm_at _ _) as [[]|]. Qed.

Lemma on_arch_packed {X} p (m : M archetype X) r : rpacked r → (∀ a ar, p = Some a → rg_heap r !! a = Some ar → packed (m ar).1) →
  rpacked (on_arch p m r).1.
Proof.
  intros Hp Hm. unfold on_arch. destruct p as [a|]; [|done]. destruct (rg_heap r !! a) as [ar|] eqn:E; [|done].
  specialize (Hm _ _ eq_refl E). destruct (m ar) as [ar' o]. cbn [fst] in *. intros b x Hb. cbn in Hb.
  apply list_lookup_insert_Some in Hb as [(-> & <- & _)|[_ Hb]]; [done|]. by apply (Hp b).
Qed.
Lemma on_arch_kept {X} p (m : M archetype X) : keeping shape m → keeping kept (on_arch p m).
Proof. intros Hm r Hp. apply on_arch_packed; [done|]. intros a ar _ Ha. apply (shape_packed ar); [apply Hm|]. by apply (Hp a). Qed.
Lemma on_arch_same {X} p (m : M archetype X) r : (∀ a, (m a).1 = a) → (on_arch p m r).1 = r.
Proof.
  intros Hm. unfold on_arch. destruct p as [a|]; [|done]. destruct (rg_heap r !! a) as [ar|] eqn:E; [|done]. specialize (Hm ar).
  destruct (m ar) as [ar' o]. cbn [fst] in *. subst ar'. unfold rg_set_heap. rewrite list_insert_id by done. by destruct r.
Qed.
Lemma arch_same p r : (rg_arch p r).1 = r. Proof. by apply on_arch_same. Qed.
Lemma arch_ok p r r1 ar : rg_arch p r = (r1, Ok ar) → r1 = r ∧ ∃ a, p = Some a ∧ rg_heap r !! a = Some ar.
Proof.
  intros E. pose proof (arch_same p r) as Es. rewrite E in Es. cbn in Es. split; [done|]. unfold rg_arch, on_arch, get in E.
  destruct p as [a|]; [|done]. destruct (rg_heap r !! a) as [x|] eqn:Ea; [|done]. injection E as _ <-. eauto.
Qed.
Lemma ref_shape c ch i : keeping shape (ar_ref c ch i).
Proof.
  apply keeping_bind; [apply _|done|]. intros a. apply keeping_bind; [apply _|by apply shape_chunk|]. intros k. destruct (decide _); [done|].
  apply keeping_same; [apply _|]. intros; apply fetch_same.
Qed.
Lemma at_ptr_kept {X} p (m : N → M chunk X) : (∀ o, keeping same (m o)) → keeping kept (at_ptr p m).
Proof. intros Hm. apply on_arch_kept, shape_chunk, Hm. Qed.

Section reg.
Context (U : universe).

Lemma ensure_key_more key mk : keeping more (rg_ensure_key U key mk).
Proof.
  intros r. unfold rg_ensure_key. destruct (ht_index _ _ _ _) as [[t i]|]; [|done]. destruct (ht_deref t i) as [[a|]|]; [| |done].
  - destruct (rg_heap r !! a) as [ar|]; [destruct (bs_eqb _ _)|]; by apply heap_more.
  - destruct (ar_new U mk) as [ar|e|] eqn:En; [|by apply heap_more|by apply heap_more]. destruct (ht_store t i _) as [t'|]; [|by apply heap_more].
    assert (more r (rg_set_heap (rg_set_table r t') (rg_heap r ++ [ar]))) as H; [|by destruct (bs_eqb _ _)].
    split; [intros a x Ha; by apply lookup_app_l_Some|]. intros Hp a x Ha. cbn in Ha. apply lookup_app_Some in Ha as [Ha|[_ Ha]]; [by apply (Hp a)|].
    apply list_lookup_singleton_Some in Ha as [_ <-]. unfold ar_new in En. destruct (get_max_size _) as [m|]; [|done]. destruct (put_blocks _ _ _ _ _) as [bl|]; [|done].
    injection En as <-. intros c k Hc Hl. cbn in Hl. lia.
Qed.
Lemma with_search_more f mk : keeping more (rg_with_search U f mk).
Proof. intros r. unfold rg_with_search, bind, get, put. etrans; [by apply (heap_more r (rg_set_search r (f (rg_search r))))|apply ensure_key_more]. Qed.

Lemma create_kept args : keeping kept (rg_create U args).
Proof.
  apply keeping_bind; [apply _|apply more_kept, allocate_more|]. intros h. apply keeping_bind; [apply _|apply more_kept, with_search_more|]. intros a.
  apply keeping_bind; [apply _| |].
  - intros r Hp. apply on_arch_packed; [done|]. intros b ar _ Hb. apply emplace_packed. by apply (Hp b).
  - intros p. apply keeping_bind; [apply _|apply more_kept, set_location_more|done].
Qed.
Lemma relocate_kept (o : option handle) l : keeping kept (match o with Some g => rg_set_location (h_id g) l | None => ret tt end).
Proof. destruct o; [apply more_kept, set_location_more|done]. Qed.
Lemma spared r h l a ar : ¬ inner_tail r h → (rg_location h r).2 = Ok l → lc_arch l = Some a → rg_heap r !! a = Some ar →
  ¬ tail_in ar (lc_chunk l) (lc_row l).
Proof. intros Hn Hl Ha Har (k & Hk & Hi & Hc). apply Hn. destruct l as [p c i]. cbn in *. subst p. exists a, c, i, ar, k. done. Qed.
Lemma location_ok h r r1 l : rg_location h r = (r1, Ok l) → r1 = r ∧ (rg_location h r).2 = Ok l.
Proof. intros E. pose proof (location_same h r) as Es. rewrite E in *. done. Qed.

Lemma destroy_packed h r : rpacked r → ¬ inner_tail r h → rpacked (rg_destroy U h r).1.
Proof.
  intros Hp Ht. unfold rg_destroy. apply bind_keeps; [by rewrite location_same|]. intros r1 l El _. apply location_ok in El as [-> El].
  apply bind_keeps.
  - apply on_arch_packed; [done|]. intros a ar Ha Har. apply erase_packed; [by apply (Hp a)|]. by apply (spared r h l a).
  - intros r1 mv _ Hp1. apply keptE; [done|]. apply keeping_bind; [apply _|apply more_kept, remove_location_more|]. intros _.
    apply keeping_bind; [apply _|apply relocate_kept|]. intros _. apply more_kept, recycle_more.
Qed.

Lemma move2_packed h r r1 l b (ar : archetype) (a : nat) : rpacked r1 → more r r1 → ¬ inner_tail r h → (rg_location h r).2 = Ok l →
  lc_arch l = Some a → rg_heap r !! a = Some ar → rpacked (on_arch2 (lc_arch l) (Some b) (ar_move U (lc_chunk l) (lc_row l)) r1).1.
Proof.
  intros Hp [Hm _] Ht El Ha Har. unfold on_arch2. rewrite Ha. destruct (decide (a = b)) as [|Hne]; [done|]. rewrite (Hm _ _ Har).
  destruct (rg_heap r1 !! b) as [y|] eqn:Ey; [|done]. pose proof (move_packed U (lc_chunk l) (lc_row l) ar y (Hp _ _ (Hm _ _ Har)) (Hp _ _ Ey) (spared _ _ _ _ _ Ht El Ha Har)) as [H1 H2].
  destruct (ar_move _ _ _ _) as [[x' y'] o]. cbn [fst snd] in *. intros d z Hd. cbn in Hd.
  apply list_lookup_insert_Some in Hd as [(-> & <- & _)|[_ Hd]]; [done|]. apply list_lookup_insert_Some in Hd as [(-> & <- & _)|[_ Hd]]; [done|]. by apply (Hp d).
Qed.

Lemma has_ok h c r l a ar : (rg_location h r).2 = Ok l → lc_arch l = Some a → rg_heap r !! a = Some ar → (rg_has h [c] r).2 = Ok (ar_contains ar c).
Proof.
  intros El Ha Har. unfold rg_has, bind. pose proof (location_same h r) as Es. destruct (rg_location h r) as [r1 o]. cbn [fst snd] in *. subst o r1.
  unfold rg_arch, on_arch, get. rewrite Ha, Har. cbn. by rewrite andb_true_r.
Qed.

Lemma set_impl_packed h c r : rpacked r → (inner_tail r h → (rg_has h [c] r).2 = Ok true) → rpacked (rg_set_impl U h c r).1.
Proof.
  intros Hp Ht. unfold rg_set_impl. apply bind_keeps; [by rewrite location_same|]. intros r1 l El _. apply location_ok in El as [-> El].
  apply bind_keeps; [by rewrite arch_same|]. intros r1 ar Er _. apply arch_ok in Er as (-> & a & Ha & Har).
  rewrite (has_ok h c r l a ar El Ha Har) in Ht. destruct (ar_contains ar c).
  - apply keptE; [done|]. apply keeping_bind; [apply _|apply on_arch_kept, ref_shape|done].
  - assert (¬ inner_tail r h) as Hn by (intros H; by specialize (Ht H)). unfold rg_ensure_added.
    match goal with |- rpacked (bind (rg_with_search _ ?f ?mk) _ _).1 => pose proof (with_search_more f mk r) as Hm end.
    apply bind_keeps; [by apply Hm|]. intros r1 b Eb Hp1. rewrite Eb in Hm. cbn [fst] in Hm.
    apply bind_keeps; [by apply (move2_packed h r r1 l b ar a)|]. intros r2 q _ Hp2.
    apply keptE; [done|]. apply keeping_bind; [apply _|apply on_arch_kept, ref_shape|]. intros off.
    apply keeping_bind; [apply _|apply relocate_kept|]. intros _. apply keeping_bind; [apply _|apply more_kept, set_location_more|done].
Qed.
Lemma set_packed h c x r : rpacked r → (inner_tail r h → (rg_has h [c] r).2 = Ok true) → rpacked (rg_set U h c x r).1.
Proof.
  intros Hp Ht. unfold rg_set. apply bind_keeps; [by apply set_impl_packed|]. intros r1 ip _ Hp1. destruct x as [v|]; [|done].
  apply (at_ptr_kept ip.2); [|done]. intros o. destruct ip.1; [apply same_construct|apply same_assign].
Qed.
Lemma get_or_insert_packed h c x r : rpacked r → (inner_tail r h → (rg_has h [c] r).2 = Ok true) → rpacked (rg_get_or_insert U h c x r).1.
Proof.
  intros Hp Ht. unfold rg_get_or_insert. apply bind_keeps; [by apply set_impl_packed|]. intros r1 ip _ Hp1.
  apply keptE; [done|]. apply keeping_bind; [apply _| |].
  - destruct ip.1; [|done]. destruct x as [v|]; [|done]. apply at_ptr_kept. intros o. apply same_construct.
  - intros _. apply at_ptr_kept, same_read.
Qed.
Lemma remove_packed h c r : rpacked r → (inner_tail r h → (rg_has h [c] r).2 = Ok false) → rpacked (rg_remove U h c r).1.
Proof.
  intros Hp Ht. unfold rg_remove. apply bind_keeps; [by rewrite location_same|]. intros r1 l El _. apply location_ok in El as [-> El].
  apply bind_keeps; [by rewrite arch_same|]. intros r1 ar Er _. apply arch_ok in Er as (-> & a & Ha & Har).
  rewrite (has_ok h c r l a ar El Ha Har) in Ht. destruct (ar_contains ar c); [|done].
  assert (¬ inner_tail r h) as Hn by (intros H; by specialize (Ht H)). unfold rg_ensure_removed.
  match goal with |- rpacked (bind (rg_with_search _ ?f ?mk) _ _).1 => pose proof (with_search_more f mk r) as Hm end.
  apply bind_keeps; [by apply Hm|]. intros r1 b Eb Hp1. rewrite Eb in Hm. cbn [fst] in Hm.
  apply bind_keeps; [by apply (move2_packed h r r1 l b ar a)|]. intros r2 q _ Hp2.
  apply keptE; [done|]. apply keeping_bind; [apply _|apply relocate_kept|]. intros _. apply more_kept, set_location_more.
Qed.
Lemma copy_into_kept src h ph : keeping kept (rg_copy_into U src h ph).
Proof.
  apply keeping_bind; [apply _|done|]. intros l. apply keeping_bind; [apply _|unfold of_opt; by destruct (_ ≫= _)|]. intros ar.
  apply keeping_bind; [apply _|apply more_kept, ensure_key_more|]. intros b. apply keeping_bind; [apply _| |].
  - intros r Hp. apply on_arch_packed; [done|]. intros x y _ Hy. apply copy_packed. by apply (Hp x).
  - intros p. apply keeping_bind; [apply _| |].
    + apply on_arch_kept. apply keeping_bind; [apply _|done|]. intros a. apply keeping_bind; [apply _|apply keeping_same; [apply _|intros; apply blk_same]|].
      intros bb. apply shape_chunk, same_assign.
    + intros _. apply keeping_bind; [apply _|apply more_kept, set_location_more|done].
Qed.

Lemma it_new_same bl rq i : keeping same (it_new bl rq i).
Proof.
  induction rq as [|q rq IH]; cbn [it_new]; [done|]. apply keeping_bind; [apply _|apply keeping_same; [apply _|intros; apply fetch_same]|].
  intros p. apply keeping_bind; [apply _|done|done].
Qed.
Lemma it_deref_same ps : keeping same (it_deref ps).
Proof. induction ps as [|p ps IH]; cbn [it_deref]; [done|]. apply keeping_bind; [apply _|apply same_read|]. intros x. apply keeping_bind; [apply _|done|done]. Qed.
Lemma vw_rows_same rq f e : ∀ n ps log, keeping same (vw_rows U n rq f ps e log).
Proof.
  induction n as [|n IH]; intros ps log; cbn [vw_rows]; [done|]. destruct (it_eqb ps e); [done|]. apply keeping_bind; [apply _| |intros l; apply IH].
  apply keeping_bind; [apply _|apply it_deref_same|]. intros xs. apply keeping_bind; [apply _| |done]. apply keeping_forM; [apply _|]. intros qp.
  destruct (vr_mut qp.1); [|done]. destruct (f log xs (vr_cid qp.1)); [apply same_assign|done].
Qed.
Lemma vw_chunk_same bl rq f log : keeping same (vw_chunk U bl rq f log).
Proof.
  apply keeping_bind; [apply _|done|]. intros k. apply keeping_bind; [apply _|apply it_new_same|]. intros b. apply keeping_bind; [apply _|apply it_new_same|].
  intros e. apply vw_rows_same.
Qed.
Lemma vw_first_same bl rq : keeping same (vw_first bl rq).
Proof.
  apply keeping_bind; [apply _|done|]. intros k. apply keeping_bind; [apply _|apply it_new_same|]. intros b. apply keeping_bind; [apply _|apply it_new_same|].
  intros e. destruct (it_eqb b e); [done|]. apply keeping_bind; [apply _|apply it_deref_same|done].
Qed.
Lemma vw_chunks_kept p bl rq f js : ∀ log, keeping kept (vw_chunks U p bl rq f js log).
Proof. induction js as [|j js IH]; intros log; cbn [vw_chunks]; [done|]. apply keeping_bind; [apply _|apply on_arch_kept, shape_chunk, vw_chunk_same|done]. Qed.
Lemma arch_kept p : keeping kept (rg_arch p). Proof. apply keeping_same; [apply _|]. intros; apply arch_same. Qed.
Lemma each_kept rq f : keeping kept (rg_each U rq f).
Proof.
  apply keeping_bind; [apply _|done|]. intros r. generalize (ht_iter (rg_table r)), (@nil (list cell)). intros l.
  induction l as [|e l IH]; intros log; cbn [vw_archs]; [done|]. apply keeping_bind; [apply _|apply arch_kept|]. intros ar.
  apply keeping_bind; [apply _| |done]. destruct (forallb _ _); [apply vw_chunks_kept|done].
Qed.
Lemma vs_chunks_kept p bl rq js : keeping kept (vs_chunks p bl rq js).
Proof.
  induction js as [|j js IH]; cbn [vs_chunks]; [done|]. apply keeping_bind; [apply _|apply on_arch_kept, shape_chunk, vw_first_same|]. by intros [xs|].
Qed.
Lemma single_kept rq : keeping kept (rg_single U rq).
Proof.
  apply keeping_bind; [apply _|done|]. intros r. generalize (ht_iter (rg_table r)). intros l.
  induction l as [|e l IH]; cbn [vs_archs]; [done|]. apply keeping_bind; [apply _|apply arch_kept|]. intros ar.
  apply keeping_bind; [apply _| |by intros [xs|]]. destruct (forallb _ _); [apply vs_chunks_kept|done].
Qed.
Lemma location_kept h : keeping kept (rg_location h). Proof. apply keeping_same; [apply _|]. intros; apply location_same. Qed.

Lemma map_state {S X Y} (f : X → Y) (m : M S X) s : (mapM f m s).1 = (m s).1.
Proof. unfold mapM, bind. by destruct (m s) as [s1 [x|e|]]. Qed.

Lemma rop_packed op r : rpacked r → spares r op → rpacked (run_rop U op r).1.
Proof.
  intros Hp Hs. destruct op; cbn [run_rop spares] in *; rewrite ?map_state; try done.
  - by apply create_kept.
  - by apply destroy_packed.
  - by apply set_packed.
  - by apply get_or_insert_packed.
  - by apply remove_packed.
  - unfold rg_get. apply keptE; [done|]. apply keeping_bind; [apply _|apply location_kept|]. intros l.
    apply keeping_bind; [apply _|apply on_arch_kept, ref_shape|]. intros off. apply on_arch_kept, shape_chunk, same_read.
  - unfold rg_has. apply keptE; [done|]. apply keeping_bind; [apply _|apply location_kept|]. intros l. apply keeping_bind; [apply _|apply arch_kept|done].
  - unfold rg_visit. apply keptE; [done|]. apply keeping_bind; [apply _|apply location_kept|]. intros l. apply keeping_bind; [apply _|apply arch_kept|done].
  - unfold rg_clone. apply keptE; [done|]. apply keeping_bind; [apply _|apply more_kept, allocate_more|]. intros g. apply keeping_bind; [apply _|done|].
    intros x. apply copy_into_kept.
  - unfold rg_clone_into. apply keptE; [done|]. apply keeping_bind; [apply _|done|]. intros x. apply copy_into_kept.
  - by apply (more_kept rg_reserve reserve_more).
  - by apply each_kept.
  - by apply single_kept.
Qed.
End reg.

(** * Counting *)
Lemma chunks_needed U s bl cs mx : ∀ ks rowss, Forall2 (ck_repr U s bl cs mx) ks rowss →
  (∀ c k, ks !! c = Some k → S c < length ks → ck_size k = ck_max k) → (length ks - 1) * mx ≤ length (concat rowss).
Proof.
  induction ks as [|k ks IH]; intros rowss Hr Hp; [cbn; lia|]. inversion Hr as [|? rows ? rowss' Hk Hks]; subst. cbn [concat length]. rewrite app_length.
  assert ((length ks - 1) * mx ≤ length (concat rowss')) as H.
  { apply IH; [done|]. intros c x Hc Hl. apply (Hp (S c)); [done|]. cbn. lia. }
  destruct ks as [|k2 ks]; [cbn; lia|]. assert (ck_size k = ck_max k) as E by (apply (Hp 0); [done|cbn; lia]).
  rewrite (cr_size _ _ _ _ _ _ _ Hk), (cr_max _ _ _ _ _ _ _ Hk) in E. rewrite E. cbn [length] in *. lia.
Qed.
Definition rows_of (x : list cid * list (list row)) : list row := concat x.2.
Lemma heap_needed U s heap (hp : store) : Forall2 (λ a x, ar_repr U s a x.1 x.2) heap hp → (∀ (a : nat) ar, heap !! a = Some ar → packed ar) →
  sum_list (needed <$> heap) ≤ length (concat (rows_of <$> hp)).
Proof.
  induction 1 as [|ar x heap hp Hr Hh IH]; intros Hp; [done|]. cbn. rewrite app_length. apply Nat.add_le_mono.
  - unfold needed. apply (chunks_needed U s (ar_blocks ar) x.1); [apply Hr|]. by apply (Hp 0).
  - apply IH. intros a y Ha. by apply (Hp (S a)).
Qed.
Lemma rows_count (hp : store) locs (w : gmap handle (gmap cid val)) : lw (hrow hp) locs w → length (concat (rows_of <$> hp)) ≤ size w.
Proof.
  intros Hlw. assert (∀ (a c i : nat) y rows x, hp !! a = Some y → y.2 !! c = Some rows → rows !! i = Some x → hrow hp (a, (c, i)) = Some x) as Hat.
  { intros a c i y rows x Ha Hc Hi. unfold hrow. cbn [fst snd]. rewrite Ha. by rewrite (at_lookup _ _ _ _ Hc). }
  assert (NoDup (concat (rows_of <$> hp))) as Hnd.
  { apply NoDup_concat.
    - intros a l Ha. rewrite list_lookup_fmap in Ha. destruct (hp !! a) as [y|] eqn:Ey; [|done]. cbn in Ha. injection Ha as <-. apply NoDup_concat.
      + intros c rows Hc. apply NoDup_alt. intros i1 i2 x H1 H2.
        assert ((a, (c, i1)) = (a, (c, i2))) as E; [|congruence]. by apply (lw_same_id Hlw _ _ x x); [eapply Hat..|].
      + intros c1 c2 l1 l2 x H1 H2 Hx1 Hx2. apply elem_of_list_lookup in Hx1 as [i1 Hi1]. apply elem_of_list_lookup in Hx2 as [i2 Hi2].
        assert ((a, (c1, i1)) = (a, (c2, i2))) as E; [|congruence]. by apply (lw_same_id Hlw _ _ x x); [eapply Hat..|].
    - intros a b l l' x Ha Hb Hx Hx'. rewrite list_lookup_fmap in Ha, Hb. destruct (hp !! a) as [y|] eqn:Ey; [|done]. destruct (hp !! b) as [z|] eqn:Ez; [|done].
      cbn in Ha, Hb. injection Ha as <-. injection Hb as <-. apply elem_concat_at in Hx as [p Hp], Hx' as [q Hq].
      assert ((a, p) = (b, q)) as E; [|congruence]. apply (lw_same_id Hlw _ _ x x); [| |done]; unfold hrow; cbn [fst snd]; [by rewrite Ey|by rewrite Ez]. }
  assert (length (map_to_list w) = size w) as <- by done. apply submseteq_length, NoDup_submseteq; [done|].
  intros [h m] Hx. apply elem_of_map_to_list, (lw_world _ _ _ Hlw). apply elem_of_list_In, in_concat in Hx as (l & Hl & Hx).
  apply in_map_iff in Hl as (y & <- & Hy). apply elem_of_list_In in Hx, Hy.
  apply elem_of_list_lookup in Hy as [a Ha]. apply elem_concat_at in Hx as [p Hp]. exists (a, p). unfold hrow. cbn [fst snd]. by rewrite Ha.
Qed.

(** * Programs *)
Section tidy.
Context (U : universe) (HU : u_wf U).

Lemma tidy_reach n r s : tidy U n r s → reach U n [r] [s].
Proof.
  induction 1 as [|n r s op r' o s' Hr IH Hp Hsp Hrun Hn Hag]; [apply (Reach0 U 1)|].
  apply (ReachS U n [r] [s] (At 0 op) [r'] o [s']); [done|by exists s| |by exists s, s'|by repeat constructor].
  cbn. unfold on_reg. cbn. by rewrite Hrun.
Qed.
Lemma tidy_packed n r s : tidy U n r s → rpacked r.
Proof.
  induction 1 as [|n r s op r' o s' Hr IH Hp Hsp Hrun Hn Hag]; [by intros a ar|]. pose proof (rop_packed U op r IH Hsp) as H. by rewrite Hrun in H.
Qed.
Lemma tidy_needed n r s : tidy U n r s → below_wrap (2 * n) → sum_list (needed <$> rg_heap r) ≤ size (sr_world s).
Proof.
  intros Ht Hbw. pose proof (reach_sys U HU n [r] [s] (tidy_reach _ _ _ Ht) Hbw) as Hs.
  destruct (sys_get _ _ _ _ 0 s Hs eq_refl) as (r0 & iss & hp & [= <-] & Hri).
  pose proof (ri_inv _ _ _ _ _ _ Hri) as H. etrans; [eapply heap_needed|eapply rows_count].
  - apply (si_heap _ _ _ _ (rv_st _ _ _ _ _ _ _ _ _ H)).
  - by apply (tidy_packed n r s).
  - apply (rv_lw _ _ _ _ _ _ _ _ _ H).
Qed.

Definition spares_b (r : registry) (op : rop) : bool :=
  let tail h := match (rg_location h r).2 with
    | Ok (Loc (Some a) c i) =>
        match rg_heap r !! a with
        | Some ar => match ar_chunks ar !! c with Some k => bool_decide (S i = ck_size k ∧ S c < length (ar_chunks ar)) | None => false end
        | None => false
        end
    | _ => false
    end in
  match op with
  | ODestroy h | OSet h _ _ | OGetOrInsert h _ _ | ORemove h _ => negb (tail h)
  | _ => true
  end.
Lemma spares_ok r op : spares_b r op = true → spares r op.
Proof.
  intros H. assert (∀ h, spares_b r (ODestroy h) = true → ¬ inner_tail r h) as Hd.
  { intros h E (a & c & i & ar & k & Hl & Ha & Hk & Hi & Hc). unfold spares_b in E. rewrite Hl, Ha, Hk in E. by rewrite bool_decide_true in E. }
  destruct op; try done; cbn [spares].
  - by apply Hd.
  - intros Hi. by apply (Hd h) in Hi.
  - intros Hi. by apply (Hd h) in Hi.
  - intros Hi. by apply (Hd h) in Hi.
Qed.

Fixpoint tprog (ops : list rop) (r : registry) (s : sreg) : option (registry * sreg) :=
  match ops with
  | [] => Some (r, s)
  | op :: ops =>
      if permitted_b U s op && not_view op && spares_b r op then
        let '(r', o) := run_rop U op r in
        if is_ub o then None else match sstep [s] (At 0 op) o with [s'] => tprog ops r' s' | _ => None end
      else None
  end.
Lemma tprog_tidy ops : ∀ n r s r' s', tidy U n r s → below_wrap (2 * (length ops + n)) →
  tprog ops r s = Some (r', s') → tidy U (length ops + n) r' s'.
Proof.
  induction ops as [|op ops IH]; intros n r s r' s' Ht Hbw E; cbn [tprog] in E.
  - injection E as <- <-. done.
  - destruct (permitted_b U s op && not_view op && spares_b r op) eqn:Hp; [|done].
    apply andb_true_iff in Hp as [Hp Hsp%spares_ok]. apply andb_true_iff in Hp as [Hp%permitted_ok Hv].
    destruct (run_rop U op r) as [r1 o] eqn:Hrun. cbn [length] in *. replace (S (length ops) + n) with (length ops + S n) in * by lia.
    assert (run_sop U (At 0 op) [r] = ([r1], o)) as Hrun'. { cbn. unfold on_reg. cbn. by rewrite Hrun. }
    assert (spermitted U [s] (At 0 op)) as Hper by (by exists s).
    destruct (reach_step U HU _ _ _ _ _ _ (tidy_reach _ _ _ Ht) ltac:(unfold below_wrap in *; lia) Hper Hrun') as [(ss1 & Hn & Hr1 & _)|[-> _]]; [|done].
    rewrite <- (sstep_ok' U [s] (At 0 op) o ss1 Hv Hn) in E. destruct (is_ub o); [done|]. destruct ss1 as [|s1 [|]]; [done| |done].
    apply (IH (S n) r1 s1); [|done|done]. destruct Hn as (s0 & s2 & [= <-] & Hn & [= <-]).
    destruct (sys_get _ _ _ _ 0 s1 (reach_sys U HU _ _ _ Hr1 ltac:(unfold below_wrap in *; lia)) eq_refl) as (r0 & iss & hp & [= <-] & Hri).
    eapply TidyS; try done. by eapply ri_agrees.
Qed.
End tidy.
