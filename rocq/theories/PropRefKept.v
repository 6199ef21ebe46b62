(** C85: references to components. *)
From Verif Require Import Base Bits Layout PropLayout HandlePool HandleSpec HandlePoolProofs SparseMap SparseMapProofs
  HashTable HashTableProofs HashTableMap Bitset BitsetProofs ComponentSet ComponentSetProofs
  Chunk ChunkProofs Archetype ArchetypeProofs Registry RegistryStore RegistryProofs View ViewProofs RegSpec RegSpecProofs RegObs RegRun
  Placeholder PropRegistry RefKept RefKeptProofs.

Section props.
Context (U : universe).
Hypothesis HU : u_wf U.

(** The reference depends on the location of the entity and on the layout of its archetype only. *)
Definition fetched (bl : blocks) (c : cid) (a : nat) (l : loc) : outcome (nat * nat * N) :=
  omap_out (λ off, (a, lc_chunk l, off)) (fetch_pointer bl c (lc_row l) tt).2.
Lemma fetch_any {S} bl c i (s : S) : fetch_pointer bl c i s = (s, (fetch_pointer bl c i tt).2).
Proof. unfold fetch_pointer. by destruct (sm_at bl c) as [[]|]. Qed.
Lemma ref_any c j i ar : ar_ref c j i ar = (ar, UB) ∨ ar_ref c j i ar = (ar, (fetch_pointer (ar_blocks ar) c i tt).2).
Proof.
  unfold ar_ref, bind, get, on_chunk. destruct (ar_chunks ar !! j) as [k|] eqn:Ek; [|by left]. rewrite list_insert_id by done.
  assert (ar_with_chunks ar (ar_chunks ar) = ar) as -> by (by destruct ar). destruct (decide (ck_size k ≤ i)); [by left|]. right. apply fetch_any.
Qed.
Lemma ref_at s n r iss dd pend hp w h m c : rinv U s n r iss dd pend hp w → w !! h = Some m →
  ∃ (a : nat) ar l, sm_abs (rg_locs r) !! h_id h = Some l ∧ lc_arch l = Some a ∧ rg_heap r !! a = Some ar ∧ rg_ref h c r = (r, fetched (ar_blocks ar) c a l).
Proof.
  intros H Hw. destruct (loc_in U H h m Hw) as (a & p & cs & rowss & rows & El & Ha & Hp & Hrows & Hf & Hl).
  destruct (st_arch U _ _ _ _ _ (rv_st _ _ _ _ _ _ _ _ _ H) Ha) as (ar & Har & Hrep). cbn [fst snd] in Hrep.
  exists a, ar, (loc_of (a, p)). split; [done|]. split; [done|]. split; [done|].
  unfold rg_ref. rewrite (bind_ok _ _ _ _ _ El). cbn [loc_of lc_arch lc_chunk lc_row fst snd default].
  pose proof (ar_ref_spec U _ _ _ _ _ _ c Hrep Hp) as Er.
  assert (ar_ref c p.1 p.2 ar = (ar, (fetch_pointer (ar_blocks ar) c p.2 tt).2)) as Er'.
  { destruct (ref_any c p.1 p.2 ar) as [E|E]; [|done]. rewrite E in Er. by case_decide. }
  unfold bind, on_arch. rewrite Har, Er'. rewrite list_insert_id by done. unfold fetched. cbn [loc_of lc_row lc_chunk lc_arch fst snd]. 
  assert (rg_set_heap r (rg_heap r) = r) as Eh by (by destruct r). rewrite Eh. by destruct ((fetch_pointer (ar_blocks ar) c p.2 tt).2).
Qed.

(** Unchanged location, or the location of another entity. *)
Lemma ref_same s n r iss dd pend hp w s' n' r' iss' dd' pend' hp' w' g h mg mh c : rinv U s n r iss dd pend hp w → rinv U s' n' r' iss' dd' pend' hp' w' →
  w !! g = Some mg → w' !! h = Some mh → bk r r' → sm_abs (rg_locs r') !! h_id h = sm_abs (rg_locs r) !! h_id g → (rg_ref h c r').2 = (rg_ref g c r).2.
Proof.
  intros H H' Hw Hw' Hb E. destruct (ref_at _ _ _ _ _ _ _ _ _ _ c H Hw) as (a & ar & l & El & Ea & Har & ->).
  destruct (ref_at _ _ _ _ _ _ _ _ _ _ c H' Hw') as (a' & ar' & l' & El' & Ea' & Har' & ->). rewrite El, El' in E. injection E as ->. simplify_eq.
  destruct (Hb _ _ Har) as (x & Hx & Ex). simplify_eq. cbn [snd]. by rewrite Ex.
Qed.

(** Entities of one registry have different ids. *)
Lemma ids_differ s n r iss dd pend hp w g h : rinv U s n r iss dd pend hp w → is_Some (w !! g) → is_Some (w !! h) → h ≠ g → h_id h ≠ h_id g.
Proof. intros H Hg Hh Hn E. apply Hn. eapply alive_same; [| |done]; by eapply (world_alive U H). Qed.

(** What a call may do to the location of the entity [h]. *)
Definition may (r : registry) (w : world) (h : handle) (still : Prop) (taken : handle → Prop) (Q : N → option loc → Prop) : Prop :=
  (still → ∀ l, ¬ Q (h_id h) l) ∧
  (∀ g, taken g → h ≠ g → ∀ l, Q (h_id h) l → ∃ l0, is_Some (w !! g) ∧ sm_abs (rg_locs r) !! h_id g = Some l0 ∧ l = Some l0).
Lemma may_none r w h (A : Prop) T : may r w h A T (λ _ _, False).
Proof. split; [by intros _ l ?|]. by intros g _ _ l ?. Qed.
Lemma may_id r w h (A : Prop) T x : h_id h ≠ x → may r w h A T (λ y _, y = x).
Proof. intros Hn. split; [by intros _ l ?|]. by intros g _ _ l ?. Qed.
Lemma may_gone r w h (A : Prop) (T : handle → Prop) g l0 : is_Some (w !! g) → (A → False) → (∀ g', T g' → g' = g) → sm_abs (rg_locs r) !! h_id g = Some l0 → (h ≠ g → h_id h ≠ h_id g) →
  may r w h A T (gone g l0).
Proof.
  intros Hw HA HT El Hn. split; [by intros ?%HA|]. intros g' ->%HT Hh l [?| ->]; [by destruct (Hn Hh)|]. by exists l0.
Qed.

Lemma lrel2 Q k r r' : (k <= 2)%N → lrel Q k r r' → lrel Q 2 r r'.
Proof. apply lrel_weak. Qed.

Definition still (s : sreg) (op : rop) : Prop :=
  match op with
  | ODestroy g => sr_world s !! g = None
  | OSet g c _ | OGetOrInsert g c _ => ∀ m, sr_world s !! g = Some m → is_Some (m !! c)
  | ORemove g c => ∀ m, sr_world s !! g = Some m → m !! c = None
  | _ => True
  end.
Definition rtakes (op : rop) (g : handle) : Prop :=
  match op with
  | ODestroy g' | OSet g' _ _ | OGetOrInsert g' _ _ | ORemove g' _ => g' = g
  | _ => False
  end.

Lemma fresh_id n r s iss hp r1 ph h m : ri U n r s (ph :: iss) hp → r = r1 → sr_world s !! h = Some m → ph ∉ sr_dead s → sr_pending s = [] → sr_world s !! ph = None → h_id h ≠ h_id ph.
Proof.
  intros [_ H _] -> Hw Hd Hp Hn E. assert (h = ph) as ->; [|congruence]. eapply (alive_same (r := r1)); [| |done].
  - eapply (world_alive U H). eauto.
  - apply (alive_live U H); [by left|done|rewrite Hp; apply not_elem_of_nil].
Qed.

Lemma rop_rel n r s iss hp op h m : ri U n r s iss hp → below_wrap (S (S n)) → permitted U s op → sr_world s !! h = Some m →
  ∃ Q, lrel Q 2 r (run_rop U op r).1 ∧ may r (sr_world s) h (still s op) (rtakes op) Q.
Proof.
  intros Hri Hbw Hp Hh. pose proof (ri_inv _ _ _ _ _ _ Hri) as H.
  assert (∀ {X Y} (f : X → Y) (mm : M registry X) k, (k <= 2)%N → lq (λ _ _, False) k mm → lrel (λ _ _, False) 2 r (mapM f mm r).1) as Hz.
  { intros X Y f mm k Hk Hm. eapply lrel2; [exact Hk|]. by apply (lq_map _ k f mm Hm). }
  assert (∀ {X Y} (f : X → Y) (mm : M registry X), (mm r).1 = r → lrel (λ _ _, False) 2 r (mapM f mm r).1) as Hs.
  { intros X Y f mm E. apply (lrel2 _ 0); [lia|]. unfold mapM. destruct (mm r) as [r1 o]. cbn [fst] in *. subst r1. apply lrel_refl. }
  assert (∀ {X Y} (f : X → Y) (mm mm' : M registry X) Q, mm r = mm' r → lq Q 2 mm' → lrel Q 2 r (mapM f mm r).1) as Hr.
  { intros X Y f mm mm' Q E Hm. specialize (Hm r). unfold mapM. rewrite E. by destruct (mm' r). }
  assert (∀ g mg, sr_world s !! g = Some mg → ∃ l, rg_location g r = (r, Ok l) ∧ sm_abs (rg_locs r) !! h_id g = Some l) as Hl.
  { intros g mg Hg. destruct (loc_in U H g mg Hg) as (a & p & cs & rowss & rows & El & _ & _ & _ & _ & Hl). eauto. }
  assert (∀ g mg, sr_world s !! g = Some mg → h ≠ g → h_id h ≠ h_id g) as Hd.
  { intros g mg Hg. eapply (ids_differ _ _ _ _ _ _ _ _ _ _ H); eauto. }
  destruct op; cbn [run_rop still rtakes] in *.
  - destruct Hp as (Hp & Hnd & He). destruct (allocate_ri U HU _ _ _ _ _ Hri ltac:(unfold below_wrap in *; lia) Hp) as (r1 & ph & E1 & Hri1 & _ & Hph & Hpd & Hwp & Eh).
    exists (λ x _, x = h_id ph). split; [|by apply may_id, (fresh_id _ _ _ _ _ _ _ _ _ Hri1 eq_refl Hh Hpd Hp Hwp)].
    apply (lrel2 _ (0 + 1)); [lia|]. apply (lrel_trans _ 0 1 _ r1); [pose proof (lq_allocate (λ x _, x = h_id ph) r) as Ha; by rewrite E1 in Ha|].
    pose proof (lq_create_rest U args ph r1) as Hc. unfold mapM, rg_create, bind at 1. rewrite E1. fold (create_rest U args ph). by destruct (create_rest U args ph r1).
  - destruct (sr_world s !! h0) as [mg|] eqn:Hg.
    + destruct (Hl _ _ Hg) as (l & El & Ea). exists (gone h0 l). split; [|apply may_gone; [eauto|done|by intros ? ->|done|by eapply Hd]].
      apply (Hr _ _ _ _ (destroy_rest U h0 l)); [by apply bind_ok|]. eapply lq_weak; [|apply lq_destroy_rest]. lia.
    + exists (λ _ _, False). split; [|apply may_none]. destruct (out_specs U _ _ _ _ _ _ _ _ h0 H Hg) as (E & _). apply Hs. by rewrite E.
  - destruct (sr_world s !! h0) as [mg|] eqn:Hg.
    + destruct (mg !! c) as [v|] eqn:Hc.
      * exists (λ _ _, False). split; [|apply may_none]. destruct (set_impl_present U _ _ _ _ _ _ _ _ _ _ _ _ H Hg Hc) as (a & p & cs & rowss & ar & E & _).
        eapply (Hr _ _ _ _ _ _ (bind_ok _ _ _ _ _ E)). destruct x; (eapply lq_weak; [|first [apply lq_throw|apply lq_at]]; lia).
      * destruct (Hl _ _ Hg) as (l & El & Ea). exists (gone h0 l). split; [|apply may_gone; [eauto| |by intros ? ->|done|by eapply Hd]].
        2:{ intros Hst. destruct (Hst _ eq_refl) as [v Hv]. congruence. }
        apply (Hr _ _ _ _ (bind (set_rest U h0 c l) (λ ip, match x with CtorThrows => throw CtorThrew | CtorOk v => at_ptr ip.2 (λ off, if ip.1 then construct_at off (CVal v) else assign_obj off (CVal v)) end))).
        { unfold rg_set. unfold bind at 1. unfold rg_set_impl. rewrite (bind_ok _ _ _ _ _ El). done. }
        change 2%N with (2 + 0)%N. apply lq_bind; [apply lq_set_rest|]. intros ip. destruct x; [apply lq_at|apply lq_throw].
    + exists (λ _ _, False). split; [|apply may_none]. destruct (out_specs U _ _ _ _ _ _ _ _ h0 H Hg) as (_ & E & _). apply Hs. by rewrite E.
  - destruct (sr_world s !! h0) as [mg|] eqn:Hg.
    + destruct (mg !! c) as [v|] eqn:Hc.
      * exists (λ _ _, False). split; [|apply may_none]. destruct (set_impl_present U _ _ _ _ _ _ _ _ _ _ _ _ H Hg Hc) as (a & p & cs & rowss & ar & E & _).
        eapply (Hr _ _ _ _ _ _ (bind_ok _ _ _ _ _ E)). cbn [fst snd]. eapply lq_weak; [|apply lq_bind0; [apply lq_ret|intros _; apply lq_at]]. lia.
      * destruct (Hl _ _ Hg) as (l & El & Ea). exists (gone h0 l). split; [|apply may_gone; [eauto| |by intros ? ->|done|by eapply Hd]].
        2:{ intros Hst. destruct (Hst _ eq_refl) as [v Hv]. congruence. }
        apply (Hr _ _ _ _ (bind (set_rest U h0 c l) (λ ip, bind (if (ip.1 : bool) then match x with CtorThrows => throw CtorThrew | CtorOk v => at_ptr ip.2 (λ off, construct_at off (CVal v)) end else ret tt) (λ _, at_ptr ip.2 read_obj)))).
        { unfold rg_get_or_insert. unfold bind at 1. unfold rg_set_impl. rewrite (bind_ok _ _ _ _ _ El). done. }
        change 2%N with (2 + 0)%N. apply lq_bind; [apply lq_set_rest|]. intros ip. apply lq_bind0; [|intros _; apply lq_at].
        destruct (ip.1); [|apply lq_ret]. destruct x; [apply lq_at|apply lq_throw].
    + exists (λ _ _, False). split; [|apply may_none]. destruct (out_specs U _ _ _ _ _ _ _ _ h0 H Hg) as (_ & _ & E & _). apply Hs. by rewrite E.
  - destruct (sr_world s !! h0) as [mg|] eqn:Hg.
    + destruct (Hl _ _ Hg) as (l & El & Ea). destruct (mg !! c) as [v|] eqn:Hc.
      * exists (gone h0 l). split; [|apply may_gone; [eauto| |by intros ? ->|done|by eapply Hd]].
        2:{ intros Hst. specialize (Hst _ eq_refl). congruence. }
        apply (Hr _ _ _ _ (remove_rest U h0 c l)); [by apply bind_ok|]. apply lq_remove_rest.
      * exists (λ _ _, False). split; [|apply may_none]. apply Hs.
        destruct (loc_in U H h0 mg Hg) as (a & p & cs & rowss & rows & El' & Ha & Hpp & Hrows & Hf & Hl').
        destruct (st_arch U _ _ _ _ _ (rv_st _ _ _ _ _ _ _ _ _ H) Ha) as (ar & Har & Hrep). cbn [fst snd] in Hrep.
        unfold rg_remove. rewrite (bind_ok _ _ _ _ _ El'). cbn [loc_of lc_arch fst]. rewrite (bind_ok _ _ _ _ _ (rg_arch_run _ _ _ Har)).
        rewrite (ar_contains_spec U _ _ _ _ c Hrep). rewrite bool_decide_eq_false_2; [done|]. intros Hin. apply (full_elem _ _ _ _ Hf) in Hin. rewrite Hc in Hin. by destruct Hin.
    + exists (λ _ _, False). split; [|apply may_none]. destruct (out_specs U _ _ _ _ _ _ _ _ h0 H Hg) as (_ & _ & _ & E & _). apply Hs. by rewrite E.
  - exists (λ _ _, False). split; [|apply may_none]. apply (Hz _ _ _ _ 0%N); [lia|apply lq_get].
  - exists (λ _ _, False). split; [|apply may_none]. apply (Hz _ _ _ _ 0%N); [lia|apply lq_has].
  - exists (λ _ _, False). split; [|apply may_none]. apply (Hz _ _ _ _ 0%N); [lia|apply lq_visit].
  - exists (λ _ _, False). split; [|apply may_none]. apply (lrel2 _ 0); [lia|]. apply lrel_refl.
  - exists (λ _ _, False). split; [|apply may_none]. apply (lrel2 _ 0); [lia|]. apply lrel_refl.
  - destruct (allocate_ri U HU _ _ _ _ _ Hri ltac:(unfold below_wrap in *; lia) Hp) as (r1 & ph & E1 & Hri1 & _ & Hph & Hpd & Hwp & Eh).
    exists (λ x _, x = h_id ph). split; [|by apply may_id, (fresh_id _ _ _ _ _ _ _ _ _ Hri1 eq_refl Hh Hpd Hp Hwp)].
    apply (lrel2 _ (0 + 1)); [lia|]. apply (lrel_trans _ 0 1 _ r1); [pose proof (lq_allocate (λ x _, x = h_id ph) r) as Ha; by rewrite E1 in Ha|].
    pose proof (lq_copy_into U r1 h0 ph r1) as Hc. unfold mapM, rg_clone, bind at 1. rewrite E1. unfold bind, get. by destruct (rg_copy_into U r1 h0 ph r1).
  - destruct Hp as [(Hv1 & Hv2 & Hv3) Hv]. exists (λ x _, x = h_id ph). split.
    + apply (lrel2 _ 1); [lia|]. pose proof (lq_copy_into U r h0 ph r) as Hc. unfold mapM, rg_clone_into, bind, get. by destruct (rg_copy_into U r h0 ph r).
    + apply may_id. intros E. assert (h = ph) as ->; [|congruence]. eapply (alive_same (r := r)); [| |done].
      * eapply (world_alive U H). eauto.
      * apply (alive_live U H); [by apply (ri_iss _ _ _ _ _ _ Hri)|done|done].
  - exists (λ _ _, False). split; [|apply may_none]. apply (Hz _ _ _ _ 0%N); [lia|apply lq_reserve].
  - exists (λ _ _, False). split; [|apply may_none]. apply (Hz _ _ _ _ 0%N); [lia|by apply lq_same].
  - exists (λ _ _, False). split; [|apply may_none]. apply (Hz _ _ _ _ 0%N); [lia|apply lq_each].
  - exists (λ _ _, False). split; [|apply may_none]. apply (Hz _ _ _ _ 0%N); [lia|apply lq_single].
Qed.

(** The same for the calls that concern two registries. *)
Lemma copy_rel (src b : registry) h0 n s iss hp ph h m : ri U n b s iss hp → sr_world s !! h = Some m → h_id h ≠ h_id ph → ∀ A T,
  ∃ Q, lrel Q 2 b (mapM RHandle (rg_copy_into U src h0 ph) b).1 ∧ may b (sr_world s) h A T Q.
Proof.
  intros Hri Hh Hn A T. exists (λ x _, x = h_id ph). split; [|by apply may_id]. apply (lrel2 _ 1); [lia|]. pose proof (lq_copy_into U src h0 ph b) as Hc.
  unfold mapM. by destruct (rg_copy_into U src h0 ph b).
Qed.
Lemma vacant_id n r s iss hp ph h m : ri U n r s iss hp → sr_world s !! h = Some m → vacant s ph → h_id h ≠ h_id ph.
Proof.
  intros Hri Hh [(Hv1 & Hv2 & Hv3) Hv] E. pose proof (ri_inv _ _ _ _ _ _ Hri) as H. assert (h = ph) as ->; [|congruence]. eapply (alive_same (r := r)); [| |done].
  - eapply (world_alive U H). eauto.
  - apply (alive_live U H); [by apply (ri_iss _ _ _ _ _ _ Hri)|done|done].
Qed.
Lemma move_into_rel na a sa issa hpa nb b sb issb hpb g ph : ri U na a sa issa hpa → ri U nb b sb issb hpb →
  (∀ h m, sr_world sa !! h = Some m → ∃ Q, lrel Q 2 a (rg_move_into U g ph (a, b)).1.1 ∧ may a (sr_world sa) h (sr_world sa !! g = None) (λ g', g' = g) Q) ∧
  lrel (λ x _, x = h_id ph) 2 b (rg_move_into U g ph (a, b)).1.2.
Proof.
  intros Hria Hrib. pose proof (ri_inv _ _ _ _ _ _ Hria) as H. destruct (sr_world sa !! g) as [mg|] eqn:Hg.
  - destruct (loc_in U H g mg Hg) as (x & p & cs & rowss & rows & El & _ & _ & _ & _ & Hl).
    assert (rg_move_into U g ph (a, b) = move_rest U g ph (loc_of (x, p)) (a, b)) as ->.
    { unfold rg_move_into. apply bind_ok. unfold on_fst. cbn [fst snd]. by rewrite El. }
    destruct (l2_move_rest U g ph (loc_of (x, p)) a b) as [L1 L2]. split; [|done]. intros h m Hh. exists (gone g (loc_of (x, p))). split; [done|].
    apply may_gone; [eauto|done|done|done|]. eapply (ids_differ _ _ _ _ _ _ _ _ _ _ H); eauto.
  - destruct (out_specs U _ _ _ _ _ _ _ _ g H Hg) as (_ & _ & _ & _ & _ & _ & _ & _ & E). rewrite E. cbn [fst snd].
    split; [|apply (lrel2 _ 0); [lia|apply lrel_refl]]. intros h m Hh. exists (λ _ _, False). split; [apply (lrel2 _ 0); [lia|apply lrel_refl]|apply may_none].
Qed.

Lemma sop_rel n rs ss op (i : nat) r s h m : sys U n rs ss → below_wrap (S (S n)) → spermitted U ss op → rs !! i = Some r → ss !! i = Some s → sr_world s !! h = Some m →
  ∃ r' Q, (run_sop U op rs).1 !! i = Some r' ∧ lrel Q 2 r r' ∧ may r (sr_world s) h (calm ss i op) (λ g, takes i g op) Q.
Proof.
  intros Hsys Hbw Hper Hr Hs Hh. destruct (sys_get U _ _ _ _ _ Hsys Hs) as (r0 & iss & hp & Hr0 & Hri). simplify_eq.
  assert (∀ rs' : list registry, rs' !! i = Some r → ∃ r' Q, rs' !! i = Some r' ∧ lrel Q 2 r r' ∧ may r (sr_world s) h (calm ss i op) (λ g, takes i g op) Q) as Hsame.
  { intros rs' E. exists r, (λ _ _, False). split; [done|]. split; [apply (lrel2 _ 0); [lia|apply lrel_refl]|apply may_none]. }
  pose proof (lookup_lt_Some _ _ _ Hr) as Hlen.
  destruct op as [j op|j g k|j g k ph|j g k|j g k ph]; cbn [run_sop spermitted] in *.
  - destruct Hper as (s0 & Hs0 & Hper). unfold on_reg. destruct (rs !! j) as [x|] eqn:Hx; [|by apply Hsame]. destruct (decide (j = i)) as [->|Hn].
    + simplify_eq. destruct (rop_rel _ _ _ _ _ _ _ _ Hri Hbw Hper Hh) as (Q & L & M1 & M2). destruct (run_rop U op r) as [r' o]. cbn [fst] in *.
      exists r', Q. split; [by apply list_lookup_insert|]. split; [done|]. split.
      * intros Hc. apply M1. specialize (Hc eq_refl _ ltac:(eassumption)). by destruct op.
      * intros g Ht. apply M2. destruct op; cbn [takes rtakes] in *; by (destruct Ht || idtac).
    + destruct (run_rop U op x) as [x' o]. cbn [fst]. apply Hsame. by rewrite list_lookup_insert_ne.
  - destruct Hper as (Hjk & a & b & Ha & Hb & Hp). destruct (sys_get U _ _ _ _ _ Hsys Ha) as (ra & issa & hpa & Hra & Hria).
    destruct (sys_get U _ _ _ _ _ Hsys Hb) as (rb & issb & hpb & Hrb & Hrib). unfold on_regs. rewrite Hra, Hrb. cbn [fst snd].
    destruct (mapM RHandle (rg_copy U ra g) rb) as [b' o] eqn:E. cbn [fst]. destruct (decide (k = i)) as [->|Hn].
    2:{ apply Hsame. rewrite list_lookup_insert_ne by done. by rewrite list_insert_id. }
    simplify_eq. destruct (allocate_ri U HU _ _ _ _ _ Hrib ltac:(unfold below_wrap in *; lia) Hp) as (r1 & ph & E1 & Hri1 & _ & Hph & Hpd & Hwp & Eh).
    exists b', (λ x _, x = h_id ph). split; [apply list_lookup_insert; by rewrite insert_length|]. split; [|by apply may_id, (fresh_id _ _ _ _ _ _ _ _ _ Hri1 eq_refl Hh Hpd Hp Hwp)].
    apply (lrel2 _ (0 + 1)); [lia|]. apply (lrel_trans _ 0 1 _ r1); [pose proof (lq_allocate (λ x _, x = h_id ph) r) as Hal; by rewrite E1 in Hal|].
    pose proof (lq_copy_into U ra g ph r1) as Hc. unfold mapM, rg_copy, bind at 1 in E. rewrite E1 in E. destruct (rg_copy_into U ra g ph r1) as [b1 o1]. by simplify_eq.
  - destruct Hper as (Hjk & a & b & Ha & Hb & Hp). destruct (sys_get U _ _ _ _ _ Hsys Ha) as (ra & issa & hpa & Hra & Hria).
    destruct (sys_get U _ _ _ _ _ Hsys Hb) as (rb & issb & hpb & Hrb & Hrib). unfold on_regs. rewrite Hra, Hrb. cbn [fst snd].
    destruct (decide (k = i)) as [->|Hn].
    2:{ destruct (mapM RHandle (rg_copy_into U ra g ph) rb) as [b' o]. cbn [fst]. apply Hsame. rewrite list_lookup_insert_ne by done. by rewrite list_insert_id. }
    simplify_eq. destruct (copy_rel ra r g _ _ _ _ ph h m Hri Hh (vacant_id _ _ _ _ _ _ _ _ Hri Hh Hp) (calm ss i (CopyInto j g i ph)) (λ g', takes i g' (CopyInto j g i ph))) as (Q & L & Hm).
    destruct (mapM RHandle (rg_copy_into U ra g ph) r) as [b' o]. cbn [fst] in *. exists b', Q. split; [apply list_lookup_insert; by rewrite insert_length|]. done.
  - destruct Hper as (Hjk & a & b & Ha & Hb & Hpa & Hp). destruct (sys_get U _ _ _ _ _ Hsys Ha) as (ra & issa & hpa & Hra & Hria).
    destruct (sys_get U _ _ _ _ _ Hsys Hb) as (rb & issb & hpb & Hrb & Hrib). unfold on_regs. rewrite Hra, Hrb.
    destruct (allocate_ri U HU _ _ _ _ _ Hrib ltac:(unfold below_wrap in *; lia) Hp) as (r1 & ph & E1 & Hri1 & _ & Hph & Hpd & Hwp & Eh).
    destruct (move_into_rel _ _ _ _ _ _ _ _ _ _ g ph Hria Hri1) as [M1 M2].
    assert (rg_move U g (ra, rb) = rg_move_into U g ph (ra, r1)) as Em. { unfold rg_move. apply bind_ok. unfold on_snd. cbn [fst snd]. by rewrite E1. }
    unfold mapM. rewrite Em. destruct (rg_move_into U g ph (ra, r1)) as [[a' b'] o]. cbn [fst snd] in *. destruct (decide (k = i)) as [->|Hk].
    + simplify_eq. exists b', (λ x _, x = h_id ph). split; [apply list_lookup_insert; by rewrite insert_length|].
      split; [|by apply may_id, (fresh_id _ _ _ _ _ _ _ _ _ Hri1 eq_refl Hh Hpd Hp Hwp)].
      change 2%N with (0 + 2)%N. apply (lrel_trans _ 0 2 _ r1); [pose proof (lq_allocate (λ x _, x = h_id ph) r) as Hal; by rewrite E1 in Hal|done].
    + rewrite list_lookup_insert_ne by done. destruct (decide (j = i)) as [->|Hj].
      * simplify_eq. destruct (M1 _ _ Hh) as (Q & L & X1 & X2). exists a', Q. split; [by apply list_lookup_insert|]. split; [done|]. split.
        { intros Hc. apply X1. by apply Hc. }
        { intros g' [_ <-]. by apply X2. }
      * apply Hsame. by rewrite list_lookup_insert_ne.
  - destruct Hper as (Hjk & a & b & Ha & Hb & Hpa & Hp). destruct (sys_get U _ _ _ _ _ Hsys Ha) as (ra & issa & hpa & Hra & Hria).
    destruct (sys_get U _ _ _ _ _ Hsys Hb) as (rb & issb & hpb & Hrb & Hrib). unfold on_regs. rewrite Hra, Hrb.
    destruct (move_into_rel _ _ _ _ _ _ _ _ _ _ g ph Hria Hrib) as [M1 M2].
    unfold mapM. destruct (rg_move_into U g ph (ra, rb)) as [[a' b'] o]. cbn [fst snd] in *. destruct (decide (k = i)) as [->|Hk].
    + simplify_eq. exists b', (λ x _, x = h_id ph). split; [apply list_lookup_insert; by rewrite insert_length|].
      split; [done|]. apply may_id. by eapply vacant_id.
    + rewrite list_lookup_insert_ne by done. destruct (decide (j = i)) as [->|Hj].
      * simplify_eq. destruct (M1 _ _ Hh) as (Q & L & X1 & X2). exists a', Q. split; [by apply list_lookup_insert|]. split; [done|]. split.
        { intros Hc. apply X1. by apply Hc. }
        { intros g' [_ <-]. by apply X2. }
      * apply Hsame. by rewrite list_lookup_insert_ne.
Qed.

(** An entity does not vanish in a calm call. *)
Lemma ins_dom (w : world) g mg h : is_Some (w !! h) → is_Some (<[g := mg]> w !! h).
Proof. intros H. apply lookup_insert_is_Some'. by right. Qed.
Lemma still_keeps s op o s' h : rnext U s op o s' → still s op → is_Some (sr_world s !! h) → is_Some (sr_world s' !! h).
Proof.
  intros Hn Hc Hh. destruct op; cbn [rnext still] in *;
    try (destruct (sr_world s !! h0) as [m|] eqn:Hw; [|by destruct Hn as [_ ->]]).
  - destruct Hn as [(g & _ & _ & ->)|(_ & _ & ->)]; [|done]. by apply ins_dom.
  - done.
  - destruct x; [|by destruct Hn as [_ ->]]. destruct Hn as [(_ & ->)|(_ & _ & _ & ->)]; [|done]. by apply ins_dom.
  - destruct (m !! c); [by destruct Hn as [_ ->]|]. destruct x; [|done]. destruct Hn as [(_ & ->)|(_ & _ & ->)]; [|done]. by apply ins_dom.
  - destruct Hn as [(_ & ->)|(_ & _ & _ & ->)]; [|done]. by apply ins_dom.
  - by destruct Hn as [_ ->].
  - by destruct Hn as (b & _ & _ & ->).
  - by destruct Hn as (l & _ & _ & _ & ->).
  - by destruct Hn as (b & _ & _ & _ & ->).
  - by destruct Hn as [_ ->].
  - destruct Hn as [(_ & g & _ & _ & ->)|(_ & _ & ->)]; [|done]. by apply ins_dom.
  - destruct Hn as [(_ & _ & ->)|(_ & _ & ->)]; [|done]. by apply ins_dom.
  - by destruct Hn as (g & _ & _ & ->).
  - by destruct Hn as [_ ->].
  - destruct Hn as (es & w' & He & _ & Hcl & ->). by apply (called_dom U _ _ _ _ _ He Hcl).
  - by destruct Hn as [-> _].
Qed.
Lemma calm_keeps ss op o ss' (i : nat) s s' h : snext U ss op o ss' → spermitted U ss op → calm ss i op → ss !! i = Some s → ss' !! i = Some s' → is_Some (sr_world s !! h) → is_Some (sr_world s' !! h).
Proof.
  intros Hn Hper Hc Hs Hs' Hh. pose proof (lookup_lt_Some _ _ _ Hs) as Hlen.
  destruct op as [j op|j g k|j g k ph|j g k|j g k ph]; cbn [snext calm spermitted] in *.
  - destruct Hn as (a & a' & Ha & Hn & ->). destruct (decide (j = i)) as [->|]; [|rewrite list_lookup_insert_ne in Hs' by done; by simplify_eq].
    rewrite list_lookup_insert in Hs' by done. simplify_eq. eapply still_keeps; [done| |done]. specialize (Hc eq_refl _ ltac:(eassumption)). by destruct op.
  - destruct Hn as (a & b & Ha & Hb & Hn). destruct (sr_world a !! g); [|destruct Hn as [_ ->]; by simplify_eq].
    destruct Hn as [(_ & ph & _ & _ & ->)|(_ & _ & ->)].
    + destruct (decide (k = i)) as [->|]; [|rewrite list_lookup_insert_ne in Hs' by done; by simplify_eq]. rewrite list_lookup_insert in Hs' by done. simplify_eq. by apply ins_dom.
    + destruct (decide (k = i)) as [->|]; [|rewrite list_lookup_insert_ne in Hs' by done; by simplify_eq]. rewrite list_lookup_insert in Hs' by done. by simplify_eq.
  - destruct Hn as (a & b & Ha & Hb & Hn). destruct (sr_world a !! g); [|destruct Hn as [_ ->]; by simplify_eq].
    destruct Hn as [(_ & _ & ->)|(_ & _ & ->)].
    + destruct (decide (k = i)) as [->|]; [|rewrite list_lookup_insert_ne in Hs' by done; by simplify_eq]. rewrite list_lookup_insert in Hs' by done. simplify_eq. by apply ins_dom.
    + destruct (decide (k = i)) as [->|]; [|rewrite list_lookup_insert_ne in Hs' by done; by simplify_eq]. rewrite list_lookup_insert in Hs' by done. by simplify_eq.
  - destruct Hn as (a & b & Ha & Hb & Hn). destruct (sr_world a !! g) as [mg|] eqn:Hg; [|destruct Hn as [_ ->]; by simplify_eq]. destruct Hn as (ph & _ & _ & ->).
    destruct (decide (k = i)) as [->|]; [|rewrite list_lookup_insert_ne in Hs' by done].
    + rewrite list_lookup_insert in Hs' by (by rewrite insert_length). simplify_eq. by apply ins_dom.
    + destruct (decide (j = i)) as [->|]; [specialize (Hc eq_refl _ ltac:(eassumption)); by simplify_eq|]. rewrite list_lookup_insert_ne in Hs' by done. by simplify_eq.
  - destruct Hn as (a & b & Ha & Hb & Hn). destruct (sr_world a !! g) as [mg|] eqn:Hg; [|destruct Hn as [_ ->]; by simplify_eq]. destruct Hn as (_ & ->).
    destruct (decide (k = i)) as [->|]; [|rewrite list_lookup_insert_ne in Hs' by done].
    + rewrite list_lookup_insert in Hs' by (by rewrite insert_length). simplify_eq. by apply ins_dom.
    + destruct (decide (j = i)) as [->|]; [specialize (Hc eq_refl _ ltac:(eassumption)); by simplify_eq|]. rewrite list_lookup_insert_ne in Hs' by done. by simplify_eq.
Qed.

(** One calm call. *)
Lemma calm_step n rs ss op rs' o ss' (i : nat) r s h m : reach U n rs ss → below_wrap (2 * S n) → spermitted U ss op → run_sop U op rs = (rs', o) → snext U ss op o ss' → reach U (S n) rs' ss' →
  calm ss i op → rs !! i = Some r → ss !! i = Some s → sr_world s !! h = Some m →
  ∃ r' s', rs' !! i = Some r' ∧ ss' !! i = Some s' ∧ is_Some (sr_world s' !! h) ∧ ∀ c, (rg_ref h c r').2 = (rg_ref h c r).2.
Proof.
  intros Hr Hbw Hper Hrun Hn Hr' Hc Hi Hs Hh. pose proof (reach_sys U HU _ _ _ Hr (bw_half _ Hbw)) as Hsys. pose proof (reach_sys U HU _ _ _ Hr' Hbw) as Hsys'.
  destruct (sop_rel (2 * n) rs ss op i r s h m Hsys ltac:(unfold below_wrap in *; lia) Hper Hi Hs Hh) as (r' & Q & Hi' & [Hb L] & M1 & _). rewrite Hrun in Hi'. cbn [fst] in Hi'.
  assert (is_Some (ss' !! i)) as [s' Hs'].
  { apply lookup_lt_is_Some. rewrite <- (Forall2_length _ _ _ Hsys'). by eapply lookup_lt_Some. }
  pose proof (calm_keeps _ _ _ _ _ _ _ h Hn Hper Hc Hs Hs' ltac:(eauto)) as [m' Hm']. exists r', s'. split; [done|]. split; [done|]. split; [eauto|]. intros c.
  destruct (sys_get U _ _ _ _ _ Hsys Hs) as (r0 & iss & hp & Hr0 & Hri). destruct (sys_get U _ _ _ _ _ Hsys' Hs') as (r0' & iss' & hp' & Hr0' & Hri'). simplify_eq.
  pose proof (ri_inv _ _ _ _ _ _ Hri) as H. eapply (ref_same _ _ _ _ _ _ _ _ _ _ _ _ _ _ _ _ h h m m' c H (ri_inv _ _ _ _ _ _ Hri')); [done|done|done|].
  destruct L as (_ & _ & L); [apply H| |].
  - pose proof (locs_size U H). unfold below_wrap in *. unfold w32. lia.
  - destruct (L (h_id h)) as [E|HQ]; [done|]. by destruct (M1 Hc _ HQ).
Qed.

(** The reference of get<C>() reads as get<C>() reports. *)
Lemma ref_get s n r iss dd pend hp w h m c : rinv U s n r iss dd pend hp w → w !! h = Some m → (rg_get h c r).2 = match (rg_ref h c r).2 with Ok p => (rf_read p r).2 | Throw e => Throw e | UB => UB end.
Proof.
  intros H Hw. destruct (loc_in U H h m Hw) as (a & p & cs & rowss & rows & El & Ha & Hp & Hrows & Hf & Hl).
  unfold rg_get, rg_ref. rewrite !(bind_ok _ _ _ _ _ El). cbn [loc_of lc_arch lc_chunk lc_row fst snd default].
  destruct (st_arch U _ _ _ _ _ (rv_st _ _ _ _ _ _ _ _ _ H) Ha) as (ar & Har & Hrep).
  assert (on_arch (Some a) (ar_ref c p.1 p.2) r = (r, (ar_ref c p.1 p.2 ar).2)) as E.
  { unfold on_arch. rewrite Har. assert ((ar_ref c p.1 p.2 ar).1 = ar) as E1 by (by destruct (ref_any c p.1 p.2 ar) as [-> | ->]). destruct (ar_ref c p.1 p.2 ar) as [ar' o].
    cbn [fst snd] in *. subst ar'. rewrite list_insert_id by done. by destruct r. }
  unfold bind. rewrite E. by destruct ((ar_ref c p.1 p.2 ar).2).
Qed.
Lemma read_not_throw p r e : (rf_read p r).2 ≠ Throw e.
Proof.
  unfold rf_read, at_ptr, on_arch, on_chunk, read_obj. destruct (rg_heap r !! p.1.1) as [ar|]; [|done]. destruct (ar_chunks ar !! p.1.2) as [k|]; [|done].
  by destruct (ck_mem k !! p.2).
Qed.

(** get<C>() of an entity that has the component gives a reference to it. *)
Theorem C85_ref n r s h m c v : reached U n r s → below_wrap (2 * n) → sr_world s !! h = Some m → m !! c = Some v → c ≠ u_ent U →
  ∃ p, rg_ref h c r = (r, Ok p) ∧ (rf_read p r).2 = Ok (CVal v).
Proof.
  intros Hr Hbw Hh Hm Hc. destruct (reached_ri U HU _ _ _ Hr Hbw) as (iss & hp & Hri). pose proof (ri_inv _ _ _ _ _ _ Hri) as H.
  pose proof (ref_get _ _ _ _ _ _ _ _ _ _ c H Hh) as E. rewrite (get_spec U HU _ _ _ _ _ _ _ _ _ _ c H Hh Hc), Hm in E. cbn [snd] in E.
  destruct (ref_at _ _ _ _ _ _ _ _ _ _ c H Hh) as (a & ar & l & _ & _ & _ & Er). rewrite Er in E |- *. cbn [snd] in E.
  destruct (fetched (ar_blocks ar) c a l) as [p|e|]; [|done|done]. exists p. done.
Qed.

(** It stays the reference to the component of the entity, and reads and writes it, while other entities are created, cloned,
    copied and moved here, looked at and assigned to, in any order and number. *)
Theorem C85_kept n rs ss (i : nat) l rs' ss' r s h m c v p : reach U n rs ss → calmly U i rs ss l rs' ss' → below_wrap (2 * (n + length l)) →
  rs !! i = Some r → ss !! i = Some s → sr_world s !! h = Some m → m !! c = Some v → c ≠ u_ent U → (rg_ref h c r).2 = Ok p →
  ∃ r' s' m' v', rs' !! i = Some r' ∧ ss' !! i = Some s' ∧ sr_world s' !! h = Some m' ∧ m' !! c = Some v' ∧
    (rg_ref h c r').2 = Ok p ∧ (rf_read p r').2 = Ok (CVal v') ∧ ∀ x, rf_write p x r' = rg_set U h c (CtorOk x) r'.
Proof.
  intros Hr Hl. revert n r s m v Hr.
  induction Hl as [rs ss|rs ss op rs1 o ss1 l rs' ss' Hper Hcalm Hrun Hn Hag Hl IH]; intros n r s m v Hr Hbw Hi Hs Hh Hm Hc Hp.
  - exists r, s, m, v. split; [done|]. split; [done|]. split; [done|]. split; [done|]. split; [done|]. cbn [length] in Hbw. rewrite Nat.add_0_r in Hbw.
    assert (reached U n r s) as Hre by (by exists rs, ss, i). destruct (C85_ref _ _ _ _ _ _ _ Hre Hbw Hh Hm Hc) as (p' & E & Hrd). rewrite E in Hp. injection Hp as ->. split; [done|].
    intros x. destruct (reached_ri U HU _ _ _ Hre Hbw) as (iss & hp & Hri). pose proof (ri_inv _ _ _ _ _ _ Hri) as H.
    destruct (set_impl_present U _ _ _ _ _ _ _ _ _ _ _ _ H Hh Hm) as (a & q & cs & rowss & ar & Ei & Hcs & Har & Hrep & Hat & Hin & Hf).
    unfold rg_set. rewrite (bind_ok _ _ _ _ _ Ei). cbn [fst snd]. unfold rf_write. f_equal.
    assert (∀ b qq off, rg_set_impl U h c r = (r, Ok (b, qq)) → b = false → (rg_ref h c r).2 = Ok off → qq = off) as Hcoin.
    { intros b qq off E1 -> E2. unfold rg_set_impl in E1. destruct (loc_in U H h m Hh) as (a0 & p0 & cs0 & rowss0 & rows0 & El & _). rewrite (bind_ok _ _ _ _ _ El) in E1.
      unfold rg_ref in E2. rewrite (bind_ok _ _ _ _ _ El) in E2. unfold rg_arch in E1. cbn [loc_of lc_arch lc_chunk lc_row fst snd default] in E1, E2.
      destruct (rg_heap r !! a0) as [ar0|] eqn:Ha0; [|unfold bind, on_arch in E1; by rewrite Ha0 in E1].
      rewrite (bind_ok _ _ _ _ _ (rg_arch_run _ _ _ Ha0)) in E1. destruct (ar_contains ar0 c).
      - unfold bind in E1, E2. destruct (on_arch (Some a0) (ar_ref c p0.1 p0.2) r) as [r1 [o1|e1|]]; [|done|done]. unfold ret in E1, E2. cbn [snd] in E2. injection E1 as _ <-. by injection E2 as <-.
      - unfold bind at 1 in E1. destruct (rg_ensure_added U ar0 c r) as [r1 [o1|e1|]]; [|done|done].
        unfold bind at 1 in E1. destruct (on_arch2 _ _ _ r1) as [r2 [o2|e1|]]; [|done|done]. unfold bind at 1 in E1. destruct (on_arch _ _ r2) as [r3 [o3|e1|]]; [|done|done].
        match type of E1 with (let (_, _) := ?X in _) = _ => idtac | _ => unfold bind at 1 in E1 end.
        match type of E1 with (let (_, _) := ?X in _) = _ => destruct X as [r4 [o4|e1|]]; [|done|done] end.
        unfold bind at 1 in E1. destruct (rg_set_location _ _ r4) as [r5 [o5|e1|]]; [|done|done]. done. }
    symmetry. apply (Hcoin _ _ _ Ei eq_refl). by rewrite E.
  - cbn [length] in Hbw. assert (below_wrap (2 * S n)) as Hbw1 by (unfold below_wrap in *; lia).
    assert (reach U (S n) rs1 ss1) as Hr1 by (by eapply ReachS).
    destruct (calm_step _ _ _ _ _ _ _ _ _ _ _ _ Hr Hbw1 Hper Hrun Hn Hr1 Hcalm Hi Hs Hh) as (r1 & s1 & Hi1 & Hs1 & [m1 Hm1] & Href).
    assert (∃ v1, m1 !! c = Some v1) as [v1 Hv1].
    { assert (reached U (S n) r1 s1) as Hre by (by exists rs1, ss1, i). destruct (reached_ri U HU _ _ _ Hre Hbw1) as (iss & hp & Hri). pose proof (ri_inv _ _ _ _ _ _ Hri) as H.
      pose proof (ref_get _ _ _ _ _ _ _ _ _ _ c H Hm1) as E. rewrite (get_spec U HU _ _ _ _ _ _ _ _ _ _ c H Hm1 Hc) in E. rewrite Href, Hp in E. cbn [snd] in E.
      destruct (m1 !! c) as [v1|]; [eauto|]. symmetry in E. by apply read_not_throw in E. }
    eapply (IH (S n) r1 s1 m1 v1); [done| |done|done|done|done|done|by rewrite Href].
    unfold below_wrap in *. lia.
Qed.

(** Nor does another entity in a call that takes [g] away. *)
Lemma takes_keeps ss op o ss' (i : nat) s s' g h : snext U ss op o ss' → spermitted U ss op → takes i g op → h ≠ g → ss !! i = Some s → ss' !! i = Some s' → is_Some (sr_world s !! h) → is_Some (sr_world s' !! h).
Proof.
  intros Hn Hper Ht Hg Hs Hs' Hh. pose proof (lookup_lt_Some _ _ _ Hs) as Hlen.
  assert (∀ x, is_Some (sr_world (kill s x) !! h) ↔ x ≠ h) as Hk.
  { intros x. cbn [kill sr_world]. rewrite lookup_delete_is_Some. naive_solver. }
  destruct op as [j op|j x k|j x k ph|j x k|j x k ph]; cbn [snext takes spermitted] in *.
  - destruct Hn as (a & a' & Ha & Hn & ->). assert (j = i) as -> by (destruct op; tauto). rewrite list_lookup_insert in Hs' by done. simplify_eq.
    destruct op; try done; destruct Ht as [_ ->]; cbn [rnext] in Hn; (destruct (sr_world a !! g) as [m|] eqn:Hw; [|by destruct Hn as [_ ->]]).
    + destruct Hn as [_ ->]. by apply Hk.
    + destruct x; [|by destruct Hn as [_ ->]]. destruct Hn as [(_ & ->)|(_ & _ & _ & ->)]; [|done]. by apply ins_dom.
    + destruct (m !! c); [by destruct Hn as [_ ->]|]. destruct x; [|done]. destruct Hn as [(_ & ->)|(_ & _ & ->)]; [|done]. by apply ins_dom.
    + destruct Hn as [(_ & ->)|(_ & _ & _ & ->)]; [|done]. by apply ins_dom.
  - done.
  - done.
  - destruct Ht as [-> ->]. destruct Hn as (a & b & Ha & Hb & Hn). destruct (sr_world a !! g) as [mg|] eqn:Hw; [|destruct Hn as [_ ->]; by simplify_eq]. destruct Hn as (ph & _ & _ & ->).
    destruct Hper as [Hne _]. rewrite list_lookup_insert_ne in Hs' by done. rewrite list_lookup_insert in Hs' by done. simplify_eq. by apply Hk.
  - destruct Ht as [-> ->]. destruct Hn as (a & b & Ha & Hb & Hn). destruct (sr_world a !! g) as [mg|] eqn:Hw; [|destruct Hn as [_ ->]; by simplify_eq]. destruct Hn as (_ & ->).
    destruct Hper as [Hne _]. rewrite list_lookup_insert_ne in Hs' by done. rewrite list_lookup_insert in Hs' by done. simplify_eq. by apply Hk.
Qed.

(** After a call that destroys another entity [g], changes its set of components or moves it to another registry, the component
    is where it was, or where the same component of [g] was. *)
Theorem C85_taken n rs ss op rs' o (i : nat) r s g h m : reach U n rs ss → below_wrap (2 * S n) → spermitted U ss op → run_sop U op rs = (rs', o) → o ≠ UB →
  takes i g op → h ≠ g → rs !! i = Some r → ss !! i = Some s → sr_world s !! h = Some m →
  ∃ r', rs' !! i = Some r' ∧ ((∀ c, (rg_ref h c r').2 = (rg_ref h c r).2) ∨ (∀ c, (rg_ref h c r').2 = (rg_ref g c r).2)).
Proof.
  intros Hr Hbw Hper Hrun Hub Ht Hg Hi Hs Hh. pose proof (reach_sys U HU _ _ _ Hr (bw_half _ Hbw)) as Hsys.
  destruct (reach_step U HU _ _ _ _ _ _ Hr Hbw Hper Hrun) as [(ss' & Hn & Hr' & _)|[? _]]; [|done]. pose proof (reach_sys U HU _ _ _ Hr' Hbw) as Hsys'.
  destruct (sop_rel (2 * n) rs ss op i r s h m Hsys ltac:(unfold below_wrap in *; lia) Hper Hi Hs Hh) as (r' & Q & Hi' & [Hb L] & _ & M2). rewrite Hrun in Hi'. cbn [fst] in Hi'.
  exists r'. split; [done|].
  assert (is_Some (ss' !! i)) as [s' Hs'].
  { apply lookup_lt_is_Some. rewrite <- (Forall2_length _ _ _ Hsys'). by eapply lookup_lt_Some. }
  destruct (sys_get U _ _ _ _ _ Hsys Hs) as (r0 & iss & hp & Hr0 & Hri). destruct (sys_get U _ _ _ _ _ Hsys' Hs') as (r0' & iss' & hp' & Hr0' & Hri'). simplify_eq.
  pose proof (ri_inv _ _ _ _ _ _ Hri) as H. pose proof (ri_inv _ _ _ _ _ _ Hri') as H'.
  destruct (takes_keeps _ _ _ _ _ _ _ g h Hn Hper Ht Hg Hs Hs' ltac:(eauto)) as [m' Hm'].
  destruct L as (_ & _ & L); [apply H| |].
  { pose proof (locs_size U H). unfold below_wrap in *. unfold w32. lia. }
  destruct (L (h_id h)) as [E|HQ].
  - left. intros c. by eapply (ref_same _ _ _ _ _ _ _ _ _ _ _ _ _ _ _ _ h h m m' c H H').
  - right. intros c. destruct (M2 g Ht Hg _ HQ) as (l0 & [mg Hmg] & El & E). eapply (ref_same _ _ _ _ _ _ _ _ _ _ _ _ _ _ _ _ g h mg m' c H H'); [done|done|done|]. by rewrite E, El.
Qed.
End props.

(** * Examples *)
(** Calls, get<c>() of [h] kept as a reference, more calls, and then: what the reference shows, what get<c>() shows, and whether
    get<c>() returns the same reference. *)
Definition keep_ref (ops : list rop) (h : handle) (c : cid) (ops' : list rop) : outcome cell * outcome cell * bool :=
  let r := default rg_init (head (calls U0 (At 0 <$> ops) [rg_init]).1) in
  let r' := default rg_init (head (calls U0 (At 0 <$> ops') [r]).1) in
  match (rg_ref h c r).2 with
  | Ok p => ((rf_read p r').2, (rg_get h c r').2, match (rg_ref h c r').2 with Ok p' => bool_decide (p' = p) | _ => false end)
  | _ => (UB, UB, false)
  end.
Definition three : list rop := [OCreate [(6%N, Val 10)]; OCreate [(6%N, Val 20)]; OCreate [(6%N, Val 30)]].

(** Destroying another entity: the reference dangles, and then shows the component of a new entity. *)
Theorem C85_destroy_dangles : keep_ref three (Handle 2 0) 6%N [ODestroy (Handle 0 0)] = (UB, Ok (CVal (Val 30)), false).
Proof. by vm_compute. Qed.
Theorem C85_reused_shows : keep_ref three (Handle 2 0) 6%N [ODestroy (Handle 0 0); OCreate [(6%N, Val 40)]; OCreate [(6%N, Val 50)]] = (Ok (CVal (Val 40)), Ok (CVal (Val 30)), false).
Proof. by vm_compute. Qed.
(** Adding a component to the entity itself, and to another one. *)
Theorem C85_set_dangles : keep_ref three (Handle 2 0) 6%N [OSet (Handle 2 0) 1%N (CtorOk (Val 1))] = (UB, Ok (CVal (Val 30)), false) ∧
  keep_ref three (Handle 2 0) 6%N [OSet (Handle 0 0) 1%N (CtorOk (Val 1))] = (UB, Ok (CVal (Val 30)), false).
Proof. by vm_compute. Qed.

(** Calm calls: more chunks are added, components assigned, entities cloned. *)
Example ex_C85_kept_run : keep_ref three (Handle 0 0) 6%N
    [OCreate [(6%N, Val 40)]; OCreate [(6%N, Val 50)]; OSet (Handle 0 0) 6%N (CtorOk (Val 60)); OClone (Handle 1 0); OReserve; OSync; ORemove (Handle 1 0) 2%N] =
  (Ok (CVal (Val 60)), Ok (CVal (Val 60)), true).
Proof. by vm_compute. Qed.
(** The last entity takes the place of the destroyed one. *)
Example ex_C85_taken_run : keep_ref three (Handle 2 0) 6%N [ODestroy (Handle 0 0)] = (UB, Ok (CVal (Val 30)), false) ∧
  keep_ref three (Handle 1 0) 6%N [ODestroy (Handle 0 0)] = (Ok (CVal (Val 20)), Ok (CVal (Val 20)), true).
Proof. by vm_compute. Qed.

(** Concrete uses of the theorems. *)
Definition ops85 : list sop := [At 0 (OCreate [(6%N, Val 10)]); At 0 (OCreate [(6%N, Val 20)]); At 0 (OCreate [(6%N, Val 30)])].
Definition rs85 : list registry := default [] (fst <$> prog U0 ops85 [rg_init] [sreg_init]).
Definition ss85 : list sreg := default [] (snd <$> prog U0 ops85 [rg_init] [sreg_init]).
Definition r85 : registry := default rg_init (head rs85).
Definition s85 : sreg := default sreg_init (head ss85).
Lemma ex_C85_reach : reach U0 3 rs85 ss85.
Proof.
  apply (prog_reach U0 U0_wf 1 ops85); [vm_compute; done|].
  unfold rs85, ss85. change [rg_init] with (replicate 1 rg_init). change [sreg_init] with (replicate 1 sreg_init).
  destruct (prog _ _ _ _) as [[??]|] eqn:E; [done|]. by vm_compute in E.
Qed.
Lemma ex_C85_r : rs85 !! 0 = Some r85. Proof. by vm_compute. Qed.
Lemma ex_C85_s : ss85 !! 0 = Some s85. Proof. by vm_compute. Qed.
Lemma ex_C85_world : sr_world s85 !! Handle 0 0 = Some {[6%N := Val 10]} ∧ sr_world s85 !! Handle 2 0 = Some {[6%N := Val 30]}.
Proof. by vm_compute. Qed.
Example ex_C85_ref := C85_ref U0 U0_wf 3 r85 s85 (Handle 0 0) {[6%N := Val 10]} 6%N (Val 10)
  (ex_intro _ rs85 (ex_intro _ ss85 (ex_intro _ 0 (conj ex_C85_reach (conj ex_C85_r ex_C85_s))))) ltac:(by vm_compute) (proj1 ex_C85_world) ltac:(by vm_compute) ltac:(by vm_compute).
Lemma ex_C85_calmly : ∃ rs' ss', calmly U0 0 rs85 ss85 [At 0 (OCreate [(6%N, Val 40)]); At 0 OReserve] rs' ss'.
Proof.
  assert (spermitted U0 ss85 (At 0 (OCreate [(6%N, Val 40)]))) as Hp.
  { exists s85. split; [apply ex_C85_s|]. split; [by vm_compute|]. split; [apply NoDup_singleton|]. intros ?%elem_of_list_singleton. by vm_compute in H. }
  destruct (run_sop U0 (At 0 (OCreate [(6%N, Val 40)])) rs85) as [rs1 o1] eqn:E1.
  destruct (reach_step U0 U0_wf _ _ _ _ _ _ ex_C85_reach ltac:(by vm_compute) Hp E1) as [(ss1 & N1 & R1 & _)|[-> _]].
  2:{ assert ((is_ub (run_sop U0 (At 0 (OCreate [(6%N, Val 40)])) rs85).2) = false) as Hz by (vm_compute; reflexivity). rewrite E1 in Hz. discriminate Hz. }
  assert (is_Some (ss1 !! 0)) as [s1 Hs1].
  { destruct N1 as (s & s' & Hs & _ & E). exists s'. rewrite E. apply list_lookup_insert. exact (lookup_lt_Some _ _ _ Hs). }
  assert (spermitted U0 ss1 (At 0 OReserve)) as Hp2 by (exists s1; split; [exact Hs1|exact I]).
  destruct (run_sop U0 (At 0 OReserve) rs1) as [rs2 o2] eqn:E2.
  destruct (reach_step U0 U0_wf _ _ _ _ _ _ R1 ltac:(by vm_compute) Hp2 E2) as [(ss2 & N2 & R2 & _)|[-> _]].
  2:{ assert ((is_ub (run_sop U0 (At 0 OReserve) (run_sop U0 (At 0 (OCreate [(6%N, Val 40)])) rs85).1).2) = false) as Hz by (vm_compute; reflexivity).
      rewrite E1 in Hz. cbn [fst] in Hz. rewrite E2 in Hz. discriminate Hz. }
  exists rs2, ss2. eapply CalmS; [exact Hp|intros _ s _; exact I|exact E1|exact N1|exact (sys_agrees U0 U0_wf _ _ _ (reach_sys U0 U0_wf _ _ _ R1 ltac:(by vm_compute)))|]. eapply CalmS; [exact Hp2|intros _ s _; exact I|exact E2|exact N2|exact (sys_agrees U0 U0_wf _ _ _ (reach_sys U0 U0_wf _ _ _ R2 ltac:(by vm_compute)))|apply Calm0].
Qed.
Example ex_C85_kept rs' ss' p Hl := C85_kept U0 U0_wf 3 rs85 ss85 0 [At 0 (OCreate [(6%N, Val 40)]); At 0 OReserve] rs' ss' r85 s85 (Handle 0 0) {[6%N := Val 10]} 6%N (Val 10) p
  ex_C85_reach Hl ltac:(by vm_compute) ex_C85_r ex_C85_s (proj1 ex_C85_world) ltac:(by vm_compute) ltac:(by vm_compute).
Example ex_C85_taken rs' o := C85_taken U0 U0_wf 3 rs85 ss85 (At 0 (ODestroy (Handle 0 0))) rs' o 0 r85 s85 (Handle 0 0) (Handle 2 0) {[6%N := Val 30]}
  ex_C85_reach ltac:(by vm_compute).
Example ex_C85_taken_outcome : (run_sop U0 (At 0 (ODestroy (Handle 0 0))) rs85).2 = Ok RUnit.
Proof. by vm_compute. Qed.

Print Assumptions C85_ref.
Print Assumptions C85_kept.
Print Assumptions C85_taken.
Print Assumptions C85_destroy_dangles.
Print Assumptions C85_reused_shows.
Print Assumptions C85_set_dangles.
