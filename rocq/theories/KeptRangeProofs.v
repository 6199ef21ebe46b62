(** Every call leaves the table of archetypes as it is, or makes it larger, or fills in a null pointer. *)
From Verif Require Import Base Bits Layout PropLayout HandlePool HandleSpec HandlePoolProofs SparseMap SparseMapProofs
  HashTable HashTableProofs HashTableMap Bitset BitsetProofs ComponentSet ComponentSetProofs
  Chunk ChunkProofs Archetype ArchetypeProofs Registry RegistryStore RegistryProofs View ViewProofs RegSpec RegSpecProofs KeptRange.

Definition hasnull (t : htab bitset (option nat)) : Prop := ∃ k, ht_abs t !! k = Some None.
Definition tle (t t' : htab bitset (option nat)) : Prop := ht_size t ≤ ht_size t' ∧ (ht_size t < ht_size t' ∨ t' = t ∨ hasnull t).
Definition tmono1 (r r' : registry) : Prop := ht_wf bs_hash (rg_table r) → ht_wf bs_hash (rg_table r') ∧ tle (rg_table r) (rg_table r').
Definition tmono {X} (m : M registry X) : Prop := ∀ r, tmono1 r (m r).1.

Lemma tle_refl t : tle t t.
Proof. split; [done|]. right. by left. Qed.
Lemma tle_trans t1 t2 t3 : tle t1 t2 → tle t2 t3 → tle t1 t3.
Proof. intros [L1 D1] [L2 D2]. split; [lia|]. destruct D1 as [?|[->|?]]; [left; lia|done|by do 2 right]. Qed.
Lemma t1_refl r r' : rg_table r' = rg_table r → tmono1 r r'.
Proof. intros E W. rewrite E. split; [done|apply tle_refl]. Qed.
Lemma t1_trans r1 r2 r3 : tmono1 r1 r2 → tmono1 r2 r3 → tmono1 r1 r3.
Proof. intros H1 H2 W. destruct (H1 W) as [W2 L1]. destruct (H2 W2) as [W3 L2]. split; [done|by eapply tle_trans]. Qed.

Section mono.
Context (U : universe).

Lemma tm_ret {X} (x : X) : tmono (ret x). Proof. intros r. by apply t1_refl. Qed.
Lemma tm_throw {X} e : tmono (throw e : M registry X). Proof. intros r. by apply t1_refl. Qed.
Lemma tm_bind {X Y} (m : M registry X) (k : X → M registry Y) : tmono m → (∀ x, tmono (k x)) → tmono (bind m k).
Proof.
  intros Hm Hk r. unfold bind. specialize (Hm r). destruct (m r) as [r1 [x|e|]]; cbn [fst] in *; [|done|done]. eapply t1_trans; [exact Hm|apply Hk].
Qed.
Lemma tm_map {X Y} (f : X → Y) (m : M registry X) : tmono m → tmono (mapM f m).
Proof. intros Hm r. specialize (Hm r). unfold mapM. by destruct (m r). Qed.
Lemma tm_same {X} (m : M registry X) : (∀ r, rg_table (m r).1 = rg_table r) → tmono m.
Proof. intros Hm r. by apply t1_refl. Qed.
Lemma tm_arch {X} p (m : M archetype X) : tmono (on_arch p m).
Proof. apply tm_same. intros r. unfold on_arch. destruct p as [a|]; [|done]. destruct (rg_heap r !! a) as [ar|]; [|done]. by destruct (m ar). Qed.
Lemma tm_arch2 {X} p q (m : M (archetype * archetype) X) : tmono (on_arch2 p q m).
Proof.
  apply tm_same. intros r. unfold on_arch2. destruct p as [a|]; [|done]. destruct q as [b|]; [|done]. case_decide; [done|].
  destruct (rg_heap r !! a) as [x|]; [|done]. destruct (rg_heap r !! b) as [y|]; [|done]. by destruct (m (x, y)) as [[x' y'] o].
Qed.
Lemma tm_location h : tmono (rg_location h).
Proof. apply tm_same. intros r. unfold rg_location. destruct (rg_alive r h); [|done]. by destruct (sm_at _ _) as [[]|]. Qed.
Lemma tm_set_location id l : tmono (rg_set_location id l).
Proof. apply tm_same. intros r. unfold rg_set_location. by destruct (sm_assign _ _ _ _ _). Qed.
Lemma tm_remove_location id : tmono (rg_remove_location id).
Proof. apply tm_same. intros r. unfold rg_remove_location. by destruct (sm_erase _ _ _) as [[]|]. Qed.
Lemma tm_allocate : tmono rg_allocate.
Proof. apply tm_same. intros r. unfold rg_allocate. by destruct (pool_create _). Qed.
Lemma tm_reserve : tmono rg_reserve.
Proof. apply tm_same. intros r. unfold rg_reserve. by destruct (pool_reserve _). Qed.
Lemma index_present (t : htab bitset (option nat)) (key : bitset) (v : option nat) : ht_wf bs_hash t → ht_abs t !! key = Some v → ∃ i : nat, ht_index bs_hash None t key = Some (t, i) ∧ ht_deref t i = Some v.
Proof.
  intros W E. pose proof (find_spec bs_hash t key W) as Hf. rewrite E in Hf. destruct Hf as (i & Hf & Hd). exists i. split; [|done].
  unfold ht_index. by rewrite Hf.
Qed.
Lemma tm_key key mk : tmono (rg_ensure_key U key mk).
Proof.
  intros r W. unfold rg_ensure_key. destruct (ht_abs (rg_table r) !! key) as [v|] eqn:E.
  - destruct (index_present _ _ _ W E) as (i & -> & Hd). rewrite Hd. destruct v as [a|].
    + destruct (rg_heap r !! a) as [ar|]; [|by apply t1_refl]. destruct (bs_eqb _ _); by apply t1_refl.
    + assert (∀ t', ht_store (rg_table r) i (Some (length (rg_heap r))) = Some t' → ht_wf bs_hash t' ∧ tle (rg_table r) t') as Hst.
      { intros t' Et. unfold ht_store in Et. destruct (ht_slots (rg_table r) !! i) as [[e|]|] eqn:Ei; cbn in Et; [|done|done]. injection Et as <-.
        destruct (store_wf bs_hash (rg_table r) i e (Some (length (rg_heap r))) W Ei) as [W' _]. split; [exact W'|]. split; [done|]. right. right. by exists key. }
      destruct (ar_new U mk) as [ar|e|]; [|by apply t1_refl|by apply t1_refl]. destruct (ht_store _ _ _) as [t'|] eqn:Et; [|by apply t1_refl].
      destruct (bs_eqb _ _); cbn [fst rg_set_heap rg_set_table rg_table]; by apply Hst.
  - destruct (index_spec bs_hash None (rg_table r) key W) as (t & i & -> & Wt & Ea & Ef). rewrite E in Ea.
    assert (ht_size (rg_table r) < ht_size t) as Hlt.
    { rewrite (size_spec _ _ W), (size_spec _ _ Wt), Ea, map_size_insert_None by done. lia. }
    assert (tle (rg_table r) t) as Hle by (split; [lia|by left]).
    assert (∀ t', ht_store t i (Some (length (rg_heap r))) = Some t' → ht_wf bs_hash t' ∧ tle (rg_table r) t') as Hst.
    { intros t' Et. unfold ht_store in Et. destruct (ht_slots t !! i) as [[e|]|] eqn:Ei; cbn in Et; [|done|done]. injection Et as <-.
      destruct (store_wf bs_hash t i e (Some (length (rg_heap r))) Wt Ei) as [W' _]. split; [exact W'|]. split; cbn [ht_size]; [lia|by left]. }
    destruct (ht_deref t i) as [[a|]|] eqn:Ed; [| |by apply t1_refl].
    + destruct (rg_heap r !! a) as [ar|]; [|done]. by destruct (bs_eqb _ _).
    + destruct (ar_new U mk) as [ar|e|]; [|done|done]. destruct (ht_store _ _ _) as [t'|] eqn:Et; [|done].
      destruct (bs_eqb _ _); cbn [fst rg_set_heap rg_set_table rg_table]; by apply Hst.
Qed.
Lemma tm_search f mk : tmono (rg_with_search U f mk).
Proof. intros r. exact (tm_key (f (rg_search r)) mk (rg_set_search r (f (rg_search r)))). Qed.
Lemma tm_table {X} (k : htab bitset (option nat) → M registry X) : (∀ t, tmono (k t)) → tmono (let! r := get in k (rg_table r)).
Proof. intros Hk r. exact (Hk (rg_table r) r). Qed.

Lemma tm_create args : tmono (rg_create U args).
Proof.
  apply tm_bind; [apply tm_allocate|]. intros h. apply tm_bind; [apply tm_search|]. intros a. apply tm_bind; [apply tm_arch|]. intros p.
  apply tm_bind; [apply tm_set_location|]. intros _. apply tm_ret.
Qed.
Lemma tm_destroy h : tmono (rg_destroy U h).
Proof.
  apply tm_bind; [apply tm_location|]. intros l. apply tm_bind; [apply tm_arch|]. intros mv. apply tm_bind; [apply tm_remove_location|]. intros _.
  apply tm_bind; [destruct mv; [apply tm_set_location|apply tm_ret]|]. intros _. by apply tm_same.
Qed.
Lemma tm_set_impl h c : tmono (rg_set_impl U h c).
Proof.
  apply tm_bind; [by apply tm_location|]. intros l. apply tm_bind; [apply tm_arch|]. intros ar. destruct (ar_contains ar c).
  - apply tm_bind; [apply tm_arch|]. intros off. apply tm_ret.
  - apply tm_bind; [apply tm_search|]. intros b. apply tm_bind; [apply tm_arch2|]. intros x. apply tm_bind; [apply tm_arch|]. intros off.
    apply tm_bind; [destruct x.2; [apply tm_set_location|apply tm_ret]|]. intros _. apply tm_bind; [apply tm_set_location|]. intros _. apply tm_ret.
Qed.
Lemma tm_set h c x : tmono (rg_set U h c x).
Proof. apply tm_bind; [by apply tm_set_impl|]. intros ip. destruct x; [apply tm_arch|apply tm_throw]. Qed.
Lemma tm_goi h c x : tmono (rg_get_or_insert U h c x).
Proof.
  apply tm_bind; [by apply tm_set_impl|]. intros ip. apply tm_bind; [|intros _; apply tm_arch].
  destruct (ip.1); [|apply tm_ret]. destruct x; [apply tm_arch|apply tm_throw].
Qed.
Lemma tm_remove h c : tmono (rg_remove U h c).
Proof.
  apply tm_bind; [by apply tm_location|]. intros l. apply tm_bind; [apply tm_arch|]. intros ar. destruct (ar_contains ar c); [|apply tm_ret].
  apply tm_bind; [apply tm_search|]. intros b. apply tm_bind; [apply tm_arch2|]. intros x.
  apply tm_bind; [destruct x.2; [apply tm_set_location|apply tm_ret]|]. intros _. apply tm_set_location.
Qed.
Lemma tm_get h c : tmono (rg_get h c).
Proof. apply tm_bind; [by apply tm_location|]. intros l. apply tm_bind; [apply tm_arch|]. intros off. apply tm_arch. Qed.
Lemma tm_has h cs : tmono (rg_has h cs).
Proof. apply tm_bind; [by apply tm_location|]. intros l. apply tm_bind; [apply tm_arch|]. intros ar. apply tm_ret. Qed.
Lemma tm_visit h : tmono (rg_visit h).
Proof. apply tm_bind; [by apply tm_location|]. intros l. apply tm_bind; [apply tm_arch|]. intros ar. by apply tm_same. Qed.
Lemma tm_copy_into src h ph : tmono (rg_copy_into U src h ph).
Proof.
  apply tm_bind; [by apply tm_same|]. intros l. apply tm_bind; [unfold of_opt; destruct (_ ≫= _); by apply tm_same|]. intros ar. apply tm_bind; [apply tm_key|]. intros b.
  apply tm_bind; [apply tm_arch|]. intros x. apply tm_bind; [apply tm_arch|]. intros _. apply tm_bind; [apply tm_set_location|]. intros _. apply tm_ret.
Qed.
Lemma tm_copy src h : tmono (rg_copy U src h).
Proof. apply tm_bind; [apply tm_allocate|]. intros ph. apply tm_copy_into. Qed.
Lemma tm_clone_into h ph : tmono (rg_clone_into U h ph).
Proof. intros r. exact (tm_copy_into r h ph r). Qed.
Lemma tm_clone h : tmono (rg_clone U h).
Proof. apply tm_bind; [apply tm_allocate|]. intros ph r. exact (tm_copy_into r h ph r). Qed.
Lemma tm_vw_chunks p bl rq f js : ∀ log, tmono (vw_chunks U p bl rq f js log).
Proof. induction js as [|j js IH]; intros log; [apply tm_ret|]. cbn [vw_chunks]. apply tm_bind; [apply tm_arch|]. intros log'. apply IH. Qed.
Lemma tm_vw_archs rq f l : ∀ log, tmono (vw_archs U rq f l log).
Proof.
  induction l as [|e l IH]; intros log; [apply tm_ret|].
  cbn [vw_archs]. apply tm_bind; [apply tm_arch|]. intros ar. apply tm_bind; [|intros log'; apply IH]. destruct (forallb _ _); [apply tm_vw_chunks|apply tm_ret].
Qed.
Lemma tm_each rq f : tmono (rg_each U rq f).
Proof. apply (tm_table (λ t, vw_archs U rq f (ht_iter t) [])). intros t. apply tm_vw_archs. Qed.
Lemma tm_vs_chunks p bl rq js : tmono (vs_chunks p bl rq js).
Proof. induction js as [|j js IH]; [apply tm_ret|]. cbn [vs_chunks]. apply tm_bind; [apply tm_arch|]. intros [x|]; [apply tm_ret|done]. Qed.
Lemma tm_single rq : tmono (rg_single U rq).
Proof.
  apply (tm_table (λ t, vs_archs U rq (ht_iter t))). intros t. induction (ht_iter t) as [|e l IH]; [apply tm_ret|].
  cbn [vs_archs]. apply tm_bind; [apply tm_arch|]. intros ar. apply tm_bind; [|intros [x|]; [apply tm_ret|done]]. destruct (forallb _ _); [apply tm_vs_chunks|apply tm_ret].
Qed.

Lemma rop_tmono op : tmono (run_rop U op).
Proof.
  destruct op; cbn [run_rop]; try apply tm_map.
  - apply tm_create.
  - apply tm_destroy.
  - apply tm_set.
  - apply tm_goi.
  - apply tm_remove.
  - apply tm_get.
  - apply tm_has.
  - apply tm_visit.
  - by apply tm_same.
  - by apply tm_same.
  - apply tm_clone.
  - apply tm_clone_into.
  - apply tm_reserve.
  - by apply tm_same.
  - apply tm_each.
  - apply tm_single.
Qed.

(** Two registries. *)
Definition tmono2 {X} (m : M (registry * registry) X) : Prop := ∀ a b, tmono1 a (m (a, b)).1.1 ∧ tmono1 b (m (a, b)).1.2.
Lemma t2_bind {X Y} (m : M (registry * registry) X) (k : X → M (registry * registry) Y) : tmono2 m → (∀ x, tmono2 (k x)) → tmono2 (bind m k).
Proof.
  intros Hm Hk a b. unfold bind. specialize (Hm a b). destruct (m (a, b)) as [[a1 b1] [x|e|]]; cbn [fst snd] in *; [|done|done].
  destruct Hm, (Hk x a1 b1). split; by eapply t1_trans.
Qed.
Lemma t2_ret {X} (x : X) : tmono2 (ret x). Proof. intros a b. split; by apply t1_refl. Qed.
Lemma t2_fst {X} (m : M registry X) : tmono m → tmono2 (on_fst m).
Proof. intros Hm a b. specialize (Hm a). unfold on_fst. cbn [fst snd]. destruct (m a). split; [done|by apply t1_refl]. Qed.
Lemma t2_snd {X} (m : M registry X) : tmono m → tmono2 (on_snd m).
Proof. intros Hm a b. specialize (Hm b). unfold on_snd. cbn [fst snd]. destruct (m b). split; [by apply t1_refl|done]. Qed.
Lemma t2_map {X Y} (f : X → Y) (m : M (registry * registry) X) : tmono2 m → tmono2 (mapM f m).
Proof. intros Hm a b. specialize (Hm a b). unfold mapM. by destruct (m (a, b)). Qed.
Lemma t2_move_into h ph : tmono2 (rg_move_into U h ph).
Proof.
  apply t2_bind; [apply t2_fst, tm_location|]. intros l. apply t2_bind; [apply t2_fst, tm_arch|]. intros ar. apply t2_bind; [apply t2_snd, tm_key|]. intros b.
  apply t2_bind.
  - intros x y. destruct (lc_arch l) as [a|]; [|split; by apply t1_refl]. cbn [fst snd]. destruct (rg_heap x !! a) as [x'|]; [|split; by apply t1_refl].
    destruct (rg_heap y !! b) as [y'|]; [|split; by apply t1_refl]. destruct (ar_move _ _ _ _) as [[? ?] ?]. split; by apply t1_refl.
  - intros x. apply t2_bind; [apply t2_fst, tm_remove_location|]. intros _.
    apply t2_bind; [destruct x.2; [case_decide; [apply t2_ret|apply t2_fst, tm_set_location]|apply t2_ret]|]. intros _.
    apply t2_bind; [apply t2_fst; by apply tm_same|]. intros _. apply t2_bind; [apply t2_snd, tm_arch|]. intros _. apply t2_bind; [apply t2_snd, tm_set_location|]. intros _. apply t2_ret.
Qed.
Lemma t2_move h : tmono2 (rg_move U h).
Proof. apply t2_bind; [apply t2_snd, tm_allocate|]. intros ph. apply t2_move_into. Qed.

(** A call, and a program. *)
Lemma f2_refl rs : Forall2 tmono1 rs rs.
Proof. induction rs; constructor; [by apply t1_refl|done]. Qed.
Lemma f2_regs i j m rs : tmono2 m → Forall2 tmono1 rs (on_regs i j m rs).1.
Proof.
  intros Hm. unfold on_regs. destruct (rs !! i) as [a|] eqn:Ha; [|apply f2_refl]. destruct (rs !! j) as [b|] eqn:Hb; [|apply f2_refl].
  specialize (Hm a b). destruct (m (a, b)) as [[a' b'] o]. cbn [fst snd] in *. apply Forall2_same_length_lookup_2; [by rewrite !insert_length|].
  intros k x y Hx Hy. destruct (decide (j = k)) as [->|].
  - rewrite list_lookup_insert in Hy by (rewrite insert_length; by eapply lookup_lt_Some). simplify_eq. apply Hm.
  - rewrite list_lookup_insert_ne in Hy by done. destruct (decide (i = k)) as [->|].
    + rewrite list_lookup_insert in Hy by (by eapply lookup_lt_Some). simplify_eq. apply Hm.
    + rewrite list_lookup_insert_ne in Hy by done. simplify_eq. by apply t1_refl.
Qed.
Lemma sop_tmono op rs : Forall2 tmono1 rs (run_sop U op rs).1.
Proof.
  destruct op as [i op|i h j|i h j ph|i h j|i h j ph]; cbn [run_sop].
  - unfold on_reg. destruct (rs !! i) as [r|] eqn:Hr; [|apply f2_refl]. pose proof (rop_tmono op r) as Hm. destruct (run_rop U op r) as [r' o]. cbn [fst] in *.
    apply Forall2_same_length_lookup_2; [by rewrite insert_length|]. intros k x y Hx Hy. destruct (decide (i = k)) as [->|].
    + rewrite list_lookup_insert in Hy by (by eapply lookup_lt_Some). by simplify_eq.
    + rewrite list_lookup_insert_ne in Hy by done. simplify_eq. by apply t1_refl.
  - apply f2_regs. intros a b. cbn [fst snd]. pose proof (tm_map RHandle _ (tm_copy a h) b) as Hm. destruct (mapM _ _ b). split; [by apply t1_refl|done].
  - apply f2_regs. intros a b. cbn [fst snd]. pose proof (tm_map RHandle _ (tm_copy_into a h ph) b) as Hm. destruct (mapM _ _ b). split; [by apply t1_refl|done].
  - apply f2_regs, t2_map, t2_move.
  - apply f2_regs, t2_map, t2_move_into.
Qed.
Lemma steps_tmono rs ss l rs' ss' : steps U rs ss l rs' ss' → Forall2 tmono1 rs rs'.
Proof.
  induction 1 as [|rs ss op rs1 o ss1 l rs' ss' _ E _ _ _ IH]; [apply f2_refl|]. pose proof (sop_tmono op rs) as Hm. rewrite E in Hm. cbn [fst] in Hm.
  eapply Forall2_transitive; [|exact Hm|exact IH]. intros x y z. apply t1_trans.
Qed.
End mono.
