(** Which calls leave the place of an entity and the layout of the archetypes. *)
From Verif Require Import Base Bits Layout PropLayout HandlePool HandleSpec HandlePoolProofs SparseMap SparseMapProofs
  HashTable HashTableProofs HashTableMap Bitset BitsetProofs ComponentSet ComponentSetProofs
  Chunk ChunkProofs Archetype ArchetypeProofs Registry RegistryStore RegistryProofs View ViewProofs RegSpec RegSpecProofs RegObs RefKept.

(** The layouts of the archetypes stay. *)
Definition bk (r r' : registry) : Prop := ∀ (a : nat) ar, rg_heap r !! a = Some ar → ∃ ar', rg_heap r' !! a = Some ar' ∧ ar_blocks ar' = ar_blocks ar.
Definition ab {X} (m : M archetype X) : Prop := ∀ a, ar_blocks (m a).1 = ar_blocks a.

Lemma bk_refl r r' : rg_heap r' = rg_heap r → bk r r'.
Proof. intros E a ar Ha. exists ar. by rewrite E. Qed.
Lemma bk_trans r1 r2 r3 : bk r1 r2 → bk r2 r3 → bk r1 r3.
Proof. intros H1 H2 a ar Ha. destruct (H1 _ _ Ha) as (x & Hx & E). destruct (H2 _ _ Hx) as (y & Hy & E'). exists y. split; [done|congruence]. Qed.

Lemma ab_ret {X} (x : X) : ab (ret x). Proof. done. Qed.
Lemma ab_get : ab get. Proof. done. Qed.
Lemma ab_ub {X} : ab (ub : M archetype X). Proof. done. Qed.
Lemma ab_throw {X} e : ab (throw e : M archetype X). Proof. done. Qed.
Lemma ab_opt {X} (x : option X) : ab (of_opt x). Proof. by destruct x. Qed.
Lemma ab_bind {X Y} (m : M archetype X) (k : X → M archetype Y) : ab m → (∀ x, ab (k x)) → ab (bind m k).
Proof. intros Hm Hk a. unfold bind. specialize (Hm a). destruct (m a) as [a1 [x|e|]]; cbn [fst] in *; [|done|done]. by rewrite Hk. Qed.
Lemma ab_chunk {X} i (m : M chunk X) : ab (on_chunk i m).
Proof. intros a. unfold on_chunk. destruct (ar_chunks a !! i) as [k|]; [|done]. by destruct (m k). Qed.
Lemma ab_blk bl c : ab (blk_at bl c). Proof. unfold blk_at. destruct (sm_at bl c) as [[]|]; [apply ab_ret|apply ab_throw|apply ab_ub]. Qed.
Lemma ab_blkf bl c : ab (blk_find bl c). Proof. unfold blk_find. destruct (sm_find bl c) as [[]|]; [apply ab_opt|apply ab_ub|apply ab_ub]. Qed.
Lemma ab_fetch bl c i : ab (fetch_pointer bl c i). Proof. unfold fetch_pointer. destruct (sm_at bl c) as [[]|]; [apply ab_ret|apply ab_throw|apply ab_ub]. Qed.
Lemma ab_forM {A} (l : list A) f : (∀ x, ab (f x)) → ab (forM l f).
Proof. intros Hf. induction l as [|x l IH]; [apply ab_ret|]. cbn [forM]. apply ab_bind; [apply Hf|done]. Qed.
Lemma ab_free : ab ar_ensure_free.
Proof. intros a. unfold ar_ensure_free. destruct (last _) as [k|]; [|done]. by destruct (ck_full k). Qed.
Lemma ab_drop : ab ar_drop_chunk.
Proof. intros a. unfold ar_drop_chunk. destruct (last _) as [k|]; [|done]. by destruct (ck_destruct _ k). Qed.

Section mono.
Context (U : universe).
Hypothesis HU : u_wf U.

Lemma ab_emplace h args : ab (ar_emplace U h args).
Proof.
  unfold ar_emplace. apply ab_bind; [apply ab_free|]. intros f. apply ab_bind; [apply ab_get|]. intros a.
  repeat (apply ab_bind; [first [apply ab_chunk|apply ab_get|apply ab_free]|]; intros ?). apply ab_ret.
Qed.
Lemma ab_ckse c l i : ab (ck_swap_erase U c l i).
Proof.
  unfold ck_swap_erase. apply ab_bind; [apply ab_get|]. intros a. apply ab_bind; [apply ab_chunk|]. intros s. case_decide; [apply ab_ub|]. case_decide.
  { apply ab_bind; [apply ab_chunk|]. intros _. apply ab_ret. }
  apply ab_bind; [apply ab_chunk|]. intros o. destruct (ck_empty o); [apply ab_ub|]. apply ab_bind; [apply ab_blk|]. intros eb. apply ab_bind; [apply ab_chunk|]. intros e.
  destruct e; [|apply ab_ub].
  apply ab_bind; [|intros _; apply ab_bind; [apply ab_chunk|intros _; apply ab_ret]].
  apply ab_forM. intros e. apply ab_bind; [apply ab_blkf|]. intros ob. apply ab_bind; [apply ab_chunk|]. intros x. apply ab_chunk.
Qed.
Lemma ab_se c i : ab (ar_swap_erase U c i).
Proof.
  unfold ar_swap_erase. apply ab_bind; [apply ab_get|]. intros a. apply ab_bind; [apply ab_ckse|]. intros mv. apply ab_bind; [apply ab_chunk|]. intros k.
  apply ab_bind; [|intros _; apply ab_ret]. destruct (_ && _); [apply ab_drop|apply ab_ret].
Qed.
Lemma ab_copy s c i : ab (ar_copy U s c i).
Proof.
  unfold ar_copy. apply ab_bind; [apply ab_free|]. intros f. apply ab_bind; [apply ab_get|]. intros d. apply ab_bind; [apply ab_opt|]. intros k.
  apply ab_bind; [apply ab_chunk|]. intros row. apply ab_ret.
Qed.
Lemma ab_ref c ch i : ab (ar_ref c ch i).
Proof. unfold ar_ref. apply ab_bind; [apply ab_get|]. intros a. apply ab_bind; [apply ab_chunk|]. intros k. case_decide; [apply ab_ub|apply ab_fetch]. Qed.
Lemma ab_put c i h : ab (ar_put_entity U c i h).
Proof. unfold ar_put_entity. apply ab_bind; [apply ab_get|]. intros a. apply ab_bind; [apply ab_blk|]. intros b. apply ab_chunk. Qed.
Definition ab2 {X} (m : M (archetype * archetype) X) : Prop := ∀ a b, ar_blocks (m (a, b)).1.1 = ar_blocks a ∧ ar_blocks (m (a, b)).1.2 = ar_blocks b.
Lemma ab2_bind {X Y} (m : M (archetype * archetype) X) (k : X → M (archetype * archetype) Y) : ab2 m → (∀ x, ab2 (k x)) → ab2 (bind m k).
Proof.
  intros Hm Hk a b. unfold bind. specialize (Hm a b). destruct (m (a, b)) as [[a1 b1] [x|e|]]; cbn [fst snd] in *; [|done|done].
  destruct (Hk x a1 b1) as [-> ->]. done.
Qed.
Lemma ab2_fst {X} (m : M archetype X) : ab m → ab2 (on_fst m).
Proof. intros Hm a b. specialize (Hm a). unfold on_fst. cbn [fst snd]. by destruct (m a). Qed.
Lemma ab2_snd {X} (m : M archetype X) : ab m → ab2 (on_snd m).
Proof. intros Hm a b. specialize (Hm b). unfold on_snd. cbn [fst snd]. by destruct (m b). Qed.
Lemma ab2_move c i : ab2 (ar_move U c i).
Proof.
  unfold ar_move. apply ab2_bind; [apply ab2_snd, ab_free|]. intros f. apply ab2_bind; [apply ab2_fst, ab_get|]. intros s. apply ab2_bind; [apply ab2_snd, ab_get|]. intros d.
  apply ab2_bind.
  - intros x y. cbn [fst snd]. destruct (ar_chunks x !! c) as [k|]; [|done]. destruct (ar_chunks y !! f) as [k2|]; [|done]. by destruct (ck_move _ _ _ _) as [[? ?] ?].
  - intros row. apply ab2_bind; [apply ab2_fst, ab_se|]. intros mv. apply ab2_bind; [apply ab2_snd, ab_get|]. intros d'. done.
Qed.

(** ** Registries *)

(** At most [k] new entries of the location map; an entry that changes satisfies [Q]. *)
Definition lrel (Q : N → option loc → Prop) (k : N) (r r' : registry) : Prop := bk r r' ∧
  (sm_wf w32 (rg_locs r) → (sm_size (rg_locs r) + k < w32)%N →
   sm_wf w32 (rg_locs r') ∧ (sm_size (rg_locs r') <= sm_size (rg_locs r) + k)%N ∧
   ∀ x, sm_abs (rg_locs r') !! x = sm_abs (rg_locs r) !! x ∨ Q x (sm_abs (rg_locs r') !! x)).
Definition lq Q k {X} (m : M registry X) : Prop := ∀ r, lrel Q k r (m r).1.

Lemma lrel_same Q r r' : bk r r' → rg_locs r' = rg_locs r → lrel Q 0 r r'.
Proof. intros Hb E. split; [done|]. intros W L. rewrite E. split; [done|]. split; [lia|]. by left. Qed.
Lemma lrel_refl Q r : lrel Q 0 r r.
Proof. apply lrel_same; [by apply bk_refl|done]. Qed.
Lemma lrel_weak Q k k' r r' : (k <= k')%N → lrel Q k r r' → lrel Q k' r r'.
Proof. intros Hk [Hb H]. split; [done|]. intros W L. destruct (H W) as (W' & L' & A); [lia|]. split; [done|]. split; [lia|done]. Qed.
Lemma lrel_impl (Q Q' : N → option loc → Prop) k r r' : (∀ x l, Q x l → Q' x l) → lrel Q k r r' → lrel Q' k r r'.
Proof. intros HQ [Hb H]. split; [done|]. intros W L. destruct (H W L) as (W' & L' & A). split; [done|]. split; [done|]. intros x. destruct (A x); [by left|right; auto]. Qed.
Lemma lrel_trans Q k1 k2 r1 r2 r3 : lrel Q k1 r1 r2 → lrel Q k2 r2 r3 → lrel Q (k1 + k2) r1 r3.
Proof.
  intros [B1 H1] [B2 H2]. split; [by eapply bk_trans|]. intros W L. destruct (H1 W) as (W1 & L1 & A1); [lia|]. destruct (H2 W1) as (W2 & L2 & A2); [lia|].
  split; [done|]. split; [lia|]. intros x. destruct (A2 x) as [E|?]; [|by right]. rewrite E. apply A1.
Qed.
Lemma lq_weak Q k k' {X} (m : M registry X) : (k <= k')%N → lq Q k m → lq Q k' m.
Proof. intros Hk Hm r. by eapply lrel_weak. Qed.
Lemma lq_ret Q {X} (x : X) : lq Q 0 (ret x). Proof. intros r. apply lrel_refl. Qed.
Lemma lq_throw Q {X} e : lq Q 0 (throw e : M registry X). Proof. intros r. apply lrel_refl. Qed.
Lemma lq_bind Q k1 k2 {X Y} (m : M registry X) (k : X → M registry Y) : lq Q k1 m → (∀ x, lq Q k2 (k x)) → lq Q (k1 + k2) (bind m k).
Proof.
  intros Hm Hk r. unfold bind. specialize (Hm r). destruct (m r) as [r1 [x|e|]]; cbn [fst] in *.
  - eapply lrel_trans; [exact Hm|apply Hk].
  - eapply lrel_weak; [|done]. lia.
  - eapply lrel_weak; [|done]. lia.
Qed.
Lemma lq_bind0 Q k {X Y} (m : M registry X) (f : X → M registry Y) : lq Q 0 m → (∀ x, lq Q k (f x)) → lq Q k (bind m f).
Proof. intros Hm Hf. change k with (0 + k)%N. by apply lq_bind. Qed.
Lemma lq_map Q k {X Y} (f : X → Y) (m : M registry X) : lq Q k m → lq Q k (mapM f m).
Proof. intros Hm r. specialize (Hm r). unfold mapM. by destruct (m r). Qed.
Lemma lq_same Q {X} (m : M registry X) : (∀ r, rg_heap (m r).1 = rg_heap r) → (∀ r, rg_locs (m r).1 = rg_locs r) → lq Q 0 m.
Proof. intros H1 H2 r. apply lrel_same; [by apply bk_refl|done]. Qed.
Lemma bk_insert r (a : nat) ar ar' : rg_heap r !! a = Some ar → ar_blocks ar' = ar_blocks ar → bk r (rg_set_heap r (<[a := ar']> (rg_heap r))).
Proof.
  intros Ha E b br Hb. cbn [rg_set_heap rg_heap]. destruct (decide (a = b)) as [->|].
  - rewrite list_lookup_insert by (by eapply lookup_lt_Some). exists ar'. split; [done|]. congruence.
  - rewrite list_lookup_insert_ne by done. eauto.
Qed.
Lemma lq_arch Q {X} p (m : M archetype X) : ab m → lq Q 0 (on_arch p m).
Proof.
  intros Hm r. unfold on_arch. destruct p as [a|]; [|apply lrel_refl]. destruct (rg_heap r !! a) as [ar|] eqn:Ha; [|apply lrel_refl].
  specialize (Hm ar). destruct (m ar) as [ar' o]. apply lrel_same; [|done]. by eapply bk_insert.
Qed.
Lemma lq_arch2 Q {X} p q (m : M (archetype * archetype) X) : ab2 m → lq Q 0 (on_arch2 p q m).
Proof.
  intros Hm r. unfold on_arch2. destruct p as [a|]; [|apply lrel_refl]. destruct q as [b|]; [|apply lrel_refl]. case_decide as Hn; [apply lrel_refl|].
  destruct (rg_heap r !! a) as [x|] eqn:Ha; [|apply lrel_refl]. destruct (rg_heap r !! b) as [y|] eqn:Hb; [|apply lrel_refl].
  destruct (Hm x y) as [E1 E2]. destruct (m (x, y)) as [[x' y'] o]. cbn [fst snd] in *. apply lrel_same; [|done].
  eapply bk_trans; [by apply (bk_insert r a x x')|]. apply (bk_insert (rg_set_heap r (<[a:=x']> (rg_heap r))) b y y'); [|done].
  cbn [rg_set_heap rg_heap]. by rewrite list_lookup_insert_ne.
Qed.
Lemma lq_location Q h : lq Q 0 (rg_location h).
Proof.
  assert (∀ r, (rg_location h r).1 = r) as E. { intros r. unfold rg_location. destruct (rg_alive r h); [|done]. by destruct (sm_at _ _) as [[]|]. }
  apply lq_same; intros r; by rewrite E.
Qed.
Lemma lq_set_location (Q : N → option loc → Prop) id l : Q id (Some l) → lq Q 1 (rg_set_location id l).
Proof.
  intros HQ r. split; [apply bk_refl; unfold rg_set_location; by destruct (sm_assign _ _ _ _ _)|]. intros W L.
  destruct (set_loc_spec r id l W (or_intror L)) as (m & -> & Wm & Em). cbn [fst rg_set_locs rg_locs]. split; [done|]. split.
  - rewrite (sm_size_spec w32) by done. rewrite (sm_size_spec w32 (rg_locs r)) by done. rewrite Em. rewrite map_size_insert. case_match; unfold Datatypes.id; lia.
  - intros x. rewrite Em. destruct (decide (id = x)) as [<-|]; [right; by rewrite lookup_insert|left; by rewrite lookup_insert_ne].
Qed.
Lemma lq_remove_location (Q : N → option loc → Prop) id : Q id None → lq Q 0 (rg_remove_location id).
Proof.
  intros HQ r. split; [apply bk_refl; unfold rg_remove_location; by destruct (sm_erase _ _ _) as [[]|]|]. intros W L.
  destruct (sm_abs (rg_locs r) !! id) as [l|] eqn:E.
  - destruct (remove_loc_spec r id l W E) as (m & -> & Wm & Em). cbn [fst rg_set_locs rg_locs]. split; [done|]. split.
    + rewrite (sm_size_spec w32) by done. rewrite (sm_size_spec w32 (rg_locs r)) by done. rewrite Em. rewrite map_size_delete. case_match; unfold Datatypes.id; lia.
    + intros x. rewrite Em. destruct (decide (id = x)) as [<-|]; [right; by rewrite lookup_delete|left; by rewrite lookup_delete_ne].
  - unfold rg_remove_location. rewrite (sm_erase_absent w32) by done. cbn [fst rg_set_locs rg_locs]. split; [done|]. split; [lia|]. by left.
Qed.
Lemma lq_allocate Q : lq Q 0 rg_allocate.
Proof. apply lq_same; intros r; unfold rg_allocate; by destruct (pool_create _). Qed.
Lemma lq_reserve Q : lq Q 0 rg_reserve.
Proof. apply lq_same; intros r; unfold rg_reserve; by destruct (pool_reserve _). Qed.
Lemma bk_app r t x : bk r (rg_set_heap (rg_set_table r t) (rg_heap r ++ [x])).
Proof. intros a ar Ha. exists ar. split; [|done]. cbn. by apply lookup_app_l_Some. Qed.
Lemma lq_key Q key mk : lq Q 0 (rg_ensure_key U key mk).
Proof.
  intros r. unfold rg_ensure_key. destruct (ht_index _ _ _ _) as [[t i]|]; [|apply lrel_refl].
  assert (∀ t', lrel Q 0 r (rg_set_table r t')) as Ht by (intros t'; apply lrel_same; [by apply bk_refl|done]).
  assert (∀ t' x, lrel Q 0 r (rg_set_heap (rg_set_table r t') (rg_heap r ++ [x]))) as Hh by (intros t' x; apply lrel_same; [apply bk_app|done]).
  destruct (ht_deref t i) as [[a|]|]; [| |apply lrel_refl].
  - destruct (rg_heap r !! a) as [ar|]; [|apply Ht]. destruct (bs_eqb _ _); apply Ht.
  - destruct (ar_new U mk) as [ar|e|]; [|apply Ht|apply Ht]. destruct (ht_store _ _ _) as [t'|]; [|apply Ht]. destruct (bs_eqb _ _); apply Hh.
Qed.
Lemma lq_search Q f mk : lq Q 0 (rg_with_search U f mk).
Proof. intros r. exact (lq_key Q (f (rg_search r)) mk (rg_set_search r (f (rg_search r)))). Qed.
Lemma lq_getarch Q p : lq Q 0 (rg_arch p).
Proof. apply lq_arch, ab_get. Qed.
Lemma lq_at {X} Q p (m : N → M chunk X) : lq Q 0 (at_ptr p m).
Proof. apply lq_arch, ab_chunk. Qed.

(** The rest of create, after the allocation. *)
Definition create_rest (args : list (cid * val)) (h : handle) : M registry handle :=
  let! a := rg_ensure_list U args.*1 in
  let! p := on_arch (Some a) (ar_emplace U h args) in
  rg_set_location (h_id h) (Loc (Some a) p.1 p.2) ;;!
  ret h.
Lemma lq_create_rest args h : lq (λ x _, x = h_id h) 1 (create_rest args h).
Proof.
  apply lq_bind0; [apply lq_search|]. intros a. apply lq_bind0; [apply lq_arch, ab_emplace|]. intros p.
  change 1%N with (1 + 0)%N. apply lq_bind; [by apply lq_set_location|]. intros _. apply lq_ret.
Qed.

(** What may become of the locations when the entity [h] at [l] is taken away. *)
Definition gone (h : handle) (l : loc) : N → option loc → Prop := λ x l', x = h_id h ∨ l' = Some l.

Lemma lq_moved h l (mv : option handle) : lq (gone h l) 1 (match mv with Some g => rg_set_location (h_id g) l | None => ret tt end).
Proof. destruct mv; [apply lq_set_location; by right|]. eapply lq_weak; [|apply lq_ret]. lia. Qed.
Definition destroy_rest (h : handle) (l : loc) : M registry unit :=
  let! moved := on_arch (lc_arch l) (ar_swap_erase U (lc_chunk l) (lc_row l)) in
  rg_remove_location (h_id h) ;;!
  (match moved with Some g => rg_set_location (h_id g) l | None => ret tt end) ;;!
  rg_recycle h.
Lemma lq_destroy_rest h l : lq (gone h l) 1 (destroy_rest h l).
Proof.
  apply lq_bind0; [apply lq_arch, ab_se|]. intros mv. apply lq_bind0; [apply lq_remove_location; by left|]. intros _.
  change 1%N with (1 + 0)%N. apply lq_bind; [apply lq_moved|]. intros _. by apply lq_same.
Qed.
Definition set_rest (h : handle) (c : cid) (l : loc) : M registry (bool * (nat * nat * N)) :=
  let! ar := rg_arch (lc_arch l) in
  if ar_contains ar c then
    let! off := on_arch (lc_arch l) (ar_ref c (lc_chunk l) (lc_row l)) in
    ret (false, (default 0 (lc_arch l), lc_chunk l, off))
  else
    let! b := rg_ensure_added U ar c in
    let! r := on_arch2 (lc_arch l) (Some b) (ar_move U (lc_chunk l) (lc_row l)) in
    let! off := on_arch (Some b) (ar_ref c r.1.1 r.1.2) in
    (match r.2 with Some g => rg_set_location (h_id g) l | None => ret tt end) ;;!
    rg_set_location (h_id h) (Loc (Some b) r.1.1 r.1.2) ;;!
    ret (true, (b, r.1.1, off)).
Lemma lq_set_rest h c l : lq (gone h l) 2 (set_rest h c l).
Proof.
  apply lq_bind0; [apply lq_getarch|]. intros ar. destruct (ar_contains ar c).
  - apply lq_bind0; [apply lq_arch, ab_ref|]. intros off. eapply lq_weak; [|apply lq_ret]. lia.
  - apply lq_bind0; [apply lq_search|]. intros b. apply lq_bind0; [apply lq_arch2, ab2_move|]. intros x. apply lq_bind0; [apply lq_arch, ab_ref|]. intros off.
    change 2%N with (1 + (1 + 0))%N. apply lq_bind; [apply lq_moved|]. intros _. apply lq_bind; [apply lq_set_location; by left|]. intros _. apply lq_ret.
Qed.
Definition remove_rest (h : handle) (c : cid) (l : loc) : M registry unit :=
  let! ar := rg_arch (lc_arch l) in
  if ar_contains ar c then
    let! b := rg_ensure_removed U ar c in
    let! r := on_arch2 (lc_arch l) (Some b) (ar_move U (lc_chunk l) (lc_row l)) in
    (match r.2 with Some g => rg_set_location (h_id g) l | None => ret tt end) ;;!
    rg_set_location (h_id h) (Loc (Some b) r.1.1 r.1.2)
  else ret tt.
Lemma lq_remove_rest h c l : lq (gone h l) 2 (remove_rest h c l).
Proof.
  apply lq_bind0; [apply lq_getarch|]. intros ar. destruct (ar_contains ar c); [|eapply lq_weak; [|apply lq_ret]; lia].
  apply lq_bind0; [apply lq_search|]. intros b. apply lq_bind0; [apply lq_arch2, ab2_move|]. intros x.
  change 2%N with (1 + 1)%N. apply lq_bind; [apply lq_moved|]. intros _. apply lq_set_location; by left.
Qed.
Lemma lq_copy_into src h ph : lq (λ x _, x = h_id ph) 1 (rg_copy_into U src h ph).
Proof.
  apply lq_bind0; [by apply lq_same|]. intros l. apply lq_bind0; [unfold of_opt; destruct (_ ≫= _); by apply lq_same|]. intros ar. apply lq_bind0; [apply lq_key|]. intros b.
  apply lq_bind0; [apply lq_arch, ab_copy|]. intros x. apply lq_bind0; [apply lq_arch, ab_put|]. intros _. change 1%N with (1 + 0)%N.
  apply lq_bind; [by apply lq_set_location|]. intros _. apply lq_ret.
Qed.
Lemma lq_get Q h c : lq Q 0 (rg_get h c).
Proof. apply lq_bind0; [by apply lq_location|]. intros l. apply lq_bind0; [apply lq_arch, ab_ref|]. intros off. apply lq_arch, ab_chunk. Qed.
Lemma lq_has Q h cs : lq Q 0 (rg_has h cs).
Proof. apply lq_bind0; [by apply lq_location|]. intros l. apply lq_bind0; [apply lq_getarch|]. intros ar. apply lq_ret. Qed.
Lemma lq_visit Q h : lq Q 0 (rg_visit h).
Proof. apply lq_bind0; [by apply lq_location|]. intros l. apply lq_bind0; [apply lq_getarch|]. intros ar. by apply lq_same. Qed.
Lemma lq_table Q {X} (k : htab bitset (option nat) → M registry X) : (∀ t, lq Q 0 (k t)) → lq Q 0 (let! r := get in k (rg_table r)).
Proof. intros Hk r. exact (Hk (rg_table r) r). Qed.
Lemma lq_vw_chunks Q p bl rq f js : ∀ log, lq Q 0 (vw_chunks U p bl rq f js log).
Proof. induction js as [|j js IH]; intros log; [apply lq_ret|]. cbn [vw_chunks]. apply lq_bind0; [apply lq_arch, ab_chunk|]. intros log'. apply IH. Qed.
Lemma lq_vw_archs Q rq f l : ∀ log, lq Q 0 (vw_archs U rq f l log).
Proof.
  induction l as [|e l IH]; intros log; [apply lq_ret|].
  cbn [vw_archs]. apply lq_bind0; [apply lq_getarch|]. intros ar. apply lq_bind0; [|intros log'; apply IH]. destruct (forallb _ _); [apply lq_vw_chunks|apply lq_ret].
Qed.
Lemma lq_each Q rq f : lq Q 0 (rg_each U rq f).
Proof. apply (lq_table Q (λ t, vw_archs U rq f (ht_iter t) [])). intros t. apply lq_vw_archs. Qed.
Lemma lq_vs_chunks Q p bl rq js : lq Q 0 (vs_chunks p bl rq js).
Proof. induction js as [|j js IH]; [apply lq_ret|]. cbn [vs_chunks]. apply lq_bind0; [apply lq_arch, ab_chunk|]. intros [x|]; [apply lq_ret|done]. Qed.
Lemma lq_single Q rq : lq Q 0 (rg_single U rq).
Proof.
  apply (lq_table Q (λ t, vs_archs U rq (ht_iter t))). intros t. induction (ht_iter t) as [|e l IH]; [apply lq_ret|].
  cbn [vs_archs]. apply lq_bind0; [apply lq_getarch|]. intros ar. apply lq_bind0; [|intros [x|]; [apply lq_ret|done]]. destruct (forallb _ _); [apply lq_vs_chunks|apply lq_ret].
Qed.

(** ** Two registries *)
Definition lq2 Q1 Q2 k {X} (m : M (registry * registry) X) : Prop := ∀ a b, lrel Q1 k a (m (a, b)).1.1 ∧ lrel Q2 k b (m (a, b)).1.2.
Lemma l2_bind Q1 Q2 k1 k2 {X Y} (m : M (registry * registry) X) (k : X → M (registry * registry) Y) :
  lq2 Q1 Q2 k1 m → (∀ x, lq2 Q1 Q2 k2 (k x)) → lq2 Q1 Q2 (k1 + k2) (bind m k).
Proof.
  intros Hm Hk a b. unfold bind. specialize (Hm a b). destruct (m (a, b)) as [[a1 b1] [x|e|]]; cbn [fst snd] in *.
  - destruct Hm, (Hk x a1 b1). split; by eapply lrel_trans.
  - destruct Hm. split; (eapply lrel_weak; [|done]; lia).
  - destruct Hm. split; (eapply lrel_weak; [|done]; lia).
Qed.
Lemma l2_bind0 Q1 Q2 k {X Y} (m : M (registry * registry) X) (f : X → M (registry * registry) Y) :
  lq2 Q1 Q2 0 m → (∀ x, lq2 Q1 Q2 k (f x)) → lq2 Q1 Q2 k (bind m f).
Proof. intros Hm Hf. change k with (0 + k)%N. by apply l2_bind. Qed.
Lemma l2_ret Q1 Q2 {X} (x : X) : lq2 Q1 Q2 0 (ret x). Proof. intros a b. split; apply lrel_refl. Qed.
Lemma l2_fst Q1 Q2 k {X} (m : M registry X) : lq Q1 k m → lq2 Q1 Q2 k (on_fst m).
Proof. intros Hm a b. specialize (Hm a). unfold on_fst. cbn [fst snd]. destruct (m a). split; [done|]. eapply lrel_weak; [|apply lrel_refl]. lia. Qed.
Lemma l2_snd Q1 Q2 k {X} (m : M registry X) : lq Q2 k m → lq2 Q1 Q2 k (on_snd m).
Proof. intros Hm a b. specialize (Hm b). unfold on_snd. cbn [fst snd]. destruct (m b). split; [|done]. eapply lrel_weak; [|apply lrel_refl]. lia. Qed.
Lemma l2_weak Q1 Q2 k k' {X} (m : M (registry * registry) X) : (k <= k')%N → lq2 Q1 Q2 k m → lq2 Q1 Q2 k' m.
Proof. intros Hk Hm a b. destruct (Hm a b). split; by eapply lrel_weak. Qed.
Definition move_rest (h ph : handle) (l : loc) : M (registry * registry) handle :=
  let! ar := on_fst (rg_arch (lc_arch l)) in
  let! b := on_snd (rg_ensure U (ar_comps ar)) in
  let! r := (λ rs,
    match lc_arch l with
    | None => (rs, UB)
    | Some a =>
        match rg_heap rs.1 !! a, rg_heap rs.2 !! b with
        | Some x, Some y =>
            let '((x', y'), o) := ar_move U (lc_chunk l) (lc_row l) (x, y) in
            ((rg_set_heap rs.1 (<[a := x']> (rg_heap rs.1)),
              rg_set_heap rs.2 (<[b := y']> (rg_heap rs.2))), o)
        | _, _ => (rs, UB)
        end
    end) : M (registry * registry) (nat * nat * option handle) in
  on_fst (rg_remove_location (h_id h)) ;;!
  (match r.2 with
   | Some g => if decide (g = h) then ret tt else on_fst (rg_set_location (h_id g) l)
   | None => ret tt
   end) ;;!
  on_fst (rg_recycle h) ;;!
  on_snd (on_arch (Some b) (ar_put_entity U r.1.1 r.1.2 ph)) ;;!
  on_snd (rg_set_location (h_id ph) (Loc (Some b) r.1.1 r.1.2)) ;;!
  ret ph.
Lemma l2_move_rest h ph l : lq2 (gone h l) (λ x _, x = h_id ph) 2 (move_rest h ph l).
Proof.
  apply l2_bind0; [apply l2_fst, lq_getarch|]. intros ar. apply l2_bind0; [apply l2_snd, lq_key|]. intros b. apply l2_bind0.
  - intros x y. destruct (lc_arch l) as [a|]; [|split; apply lrel_refl]. cbn [fst snd]. destruct (rg_heap x !! a) as [x'|] eqn:Ha; [|split; apply lrel_refl].
    destruct (rg_heap y !! b) as [y'|] eqn:Hb; [|split; apply lrel_refl]. destruct (ab2_move (lc_chunk l) (lc_row l) x' y') as [E1 E2].
    destruct (ar_move _ _ _ _) as [[x1 y1] ?]. cbn [fst snd] in *. split; (apply lrel_same; [|done]); by eapply bk_insert.
  - intros x. apply l2_bind0; [apply l2_fst, lq_remove_location; by left|]. intros _. change 2%N with (1 + (0 + (0 + (1 + 0))))%N.
    apply l2_bind.
    { destruct x.2 as [g|]; [|eapply l2_weak; [|apply l2_ret]; lia]. case_decide; [eapply l2_weak; [|apply l2_ret]; lia|]. apply l2_fst, lq_set_location. by right. }
    intros _. apply l2_bind; [apply l2_fst; by apply lq_same|]. intros _. apply l2_bind; [apply l2_snd, lq_arch, ab_put|]. intros _.
    apply l2_bind; [apply l2_snd; by apply lq_set_location|]. intros _. apply l2_ret.
Qed.
End mono.
