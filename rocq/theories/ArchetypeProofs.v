(** The operations of an archetype as operations on its lists of rows. *)
From Verif Require Import Base Bits Layout PropLayout HandlePool SparseMap SparseMapProofs Bitset ComponentSet ComponentSetProofs
  Chunk ChunkProofs Archetype HashTable Registry.
Ltac Zify.zify_post_hook ::= Z.div_mod_to_equations.

(** What is assumed of the component types: sizes are positive (C++), the entity type is the one of
    handle.hpp and can be copied. *)
Record u_wf (U : universe) : Prop := {
  uw_ent : u_type U (u_ent U) = entity_type;
  uw_size : ∀ c, (0 < ct_size (u_type U c))%N;
  uw_copy : u_copyable U (u_ent U) = true }.

(** Row [p.2] of chunk [p.1]. *)
Definition at_ (rowss : list (list row)) (p : nat * nat) : option row :=
  match rowss !! p.1 with Some rows => rows !! p.2 | None => None end.

Definition fulls (cs : list cid) (rowss : list (list row)) : Prop := ∀ p r, at_ rowss p = Some r → full cs r.

(** [rowss'] is [rowss] with a row added at the free place [p]. *)
Definition inserted (rowss : list (list row)) (p : nat * nat) (r : row) (rowss' : list (list row)) : Prop :=
  at_ rowss p = None ∧ ∀ q, at_ rowss' q = if decide (q = p) then Some r else at_ rowss q.

(** [rowss'] is [rowss] without the row at [p]; if some entity's row was moved there, that entity is [moved]. *)
Definition erased (rowss : list (list row)) (p : nat * nat) (rowss' : list (list row)) (moved : option handle) : Prop :=
  match moved with
  | None => ∀ q, at_ rowss' q = if decide (q = p) then None else at_ rowss q
  | Some h => ∃ p2 r2, p2 ≠ p ∧ at_ rowss p2 = Some r2 ∧ r2.1 = h ∧
      ∀ q, at_ rowss' q = if decide (q = p) then Some r2 else if decide (q = p2) then None else at_ rowss q
  end.

(** The last chunk is empty although it is not the only one. *)
Definition hole (rowss : list (list row)) : Prop := last rowss = Some [] ∧ 1 < length rowss.
Global Instance hole_dec rowss : Decision (hole rowss).
Proof. unfold hole. apply _. Defined.

Lemma at_lookup rowss c i rows : rowss !! c = Some rows → at_ rowss (c, i) = rows !! i.
Proof. intros H. unfold at_. cbn [fst snd]. by rewrite H. Qed.
Lemma at_Some rowss p r : at_ rowss p = Some r → ∃ rows, rowss !! p.1 = Some rows ∧ rows !! p.2 = Some r.
Proof. unfold at_. destruct (rowss !! p.1) as [rows|]; [|done]. eauto. Qed.

Lemma at_alter_insert rowss c i r q : is_Some (at_ rowss (c, i)) →
  at_ (alter (<[i := r]>) c rowss) q = if decide (q = (c, i)) then Some r else at_ rowss q.
Proof.
  intros [r0 (rows & Hc & Hi)%at_Some]. cbn [fst snd] in *. destruct q as [c' i']. unfold at_. cbn [fst snd].
  destruct (decide (c' = c)) as [->|Hne].
  - rewrite list_lookup_alter, Hc. cbn [fmap option_fmap option_map].
    destruct (decide (i' = i)) as [->|Hni].
    + rewrite decide_True by done. apply list_lookup_insert. by eapply lookup_lt_Some.
    + rewrite decide_False by congruence. rewrite list_lookup_insert_ne by done. done.
  - rewrite list_lookup_alter_ne by done. rewrite decide_False by congruence. done.
Qed.

Lemma at_alter_snoc rowss c rows r q : rowss !! c = Some rows →
  at_ (alter (λ l, l ++ [r]) c rowss) q = if decide (q = (c, length rows)) then Some r else at_ rowss q.
Proof.
  intros Hc. destruct q as [c' i']. unfold at_. cbn [fst snd].
  destruct (decide (c' = c)) as [->|Hne].
  - rewrite list_lookup_alter, Hc. cbn [fmap option_fmap option_map].
    destruct (decide (i' = length rows)) as [->|Hni].
    + rewrite decide_True by done. by rewrite list_lookup_middle.
    + rewrite decide_False by congruence. destruct (decide (i' < length rows)).
      * by rewrite lookup_app_l.
      * rewrite !lookup_ge_None_2; [done|lia|rewrite app_length; cbn; lia].
  - rewrite list_lookup_alter_ne by done. rewrite decide_False by congruence. done.
Qed.

Lemma at_alter_pop rowss c rows r q : rowss !! c = Some (rows ++ [r]) →
  at_ (alter (λ _, rows) c rowss) q = if decide (q = (c, length rows)) then None else at_ rowss q.
Proof.
  intros Hc. destruct q as [c' i']. unfold at_. cbn [fst snd].
  destruct (decide (c' = c)) as [->|Hne].
  - rewrite list_lookup_alter, Hc. cbn [fmap option_fmap option_map].
    destruct (decide (i' = length rows)) as [->|Hni].
    + rewrite decide_True by done. by apply lookup_ge_None_2.
    + rewrite decide_False by congruence. destruct (decide (i' < length rows)).
      * by rewrite lookup_app_l.
      * rewrite !lookup_ge_None_2; [done|rewrite app_length; cbn; lia|lia].
  - rewrite list_lookup_alter_ne by done. rewrite decide_False by congruence. done.
Qed.

Lemma at_snoc_nil rowss q : at_ (rowss ++ [[]]) q = at_ rowss q.
Proof.
  unfold at_. destruct (decide (q.1 < length rowss)).
  - by rewrite lookup_app_l.
  - rewrite (lookup_ge_None_2 rowss) by lia. destruct (decide (q.1 = length rowss)) as [->|].
    + by rewrite list_lookup_middle.
    + rewrite lookup_ge_None_2; [done|rewrite app_length; cbn; lia].
Qed.

Section proofs.
Variable U : universe.

Record ar_repr (s : bool) (a : archetype) (cs : list cid) (rowss : list (list row)) : Prop := {
  ap_bl : bl_ok U cs (ar_max a) (ar_blocks a);
  ap_pos : 0 < ar_max a;
  ap_ms : ms_wf (ar_comps a);
  ap_cs : ms_metas (ar_comps a) = cs;
  ap_ne : rowss ≠ [];
  ap_ks : Forall2 (ck_repr U s (ar_blocks a) cs (ar_max a)) (ar_chunks a) rowss;
  ap_lost : s = true → ar_lost a = 0;
  ap_max : get_max_size (u_type U <$> cs) = Some (N.of_nat (ar_max a)) }.

(** The same archetype with other rows. *)
Definition same_arch (a b : archetype) : Prop :=
  ar_max b = ar_max a ∧ ar_blocks b = ar_blocks a ∧ ar_comps b = ar_comps a.

Lemma same_arch_refl a : same_arch a a.
Proof. done. Qed.
Lemma same_arch_trans a b c : same_arch a b → same_arch b c → same_arch a c.
Proof. intros (? & ? & ?) (? & ? & ?). repeat split; congruence. Qed.

Lemma ar_repr_weaken s a cs rowss : ar_repr s a cs rowss → ar_repr false a cs rowss.
Proof.
  intros []. split; try done. eapply Forall2_impl; [done|]. intros k rows. apply repr_weaken.
Qed.

(** Construction. *)
Lemma put_blocks_spec max (l : list cid) (off : N) (bl : blocks) :
  sm_wf w32 bl → NoDup l → (∀ c, c ∈ l → sm_abs bl !! c = None) →
  (N.of_nat (length (sm_dense bl) + length l) < w32)%N →
  ∃ bl', put_blocks U max off bl l = Some bl' ∧ sm_wf w32 bl' ∧
    sm_dense bl' = sm_dense bl ++ zip l (zip_with BMeta l (add_blocks max off (u_type U <$> l)).1).
Proof.
  revert off bl. induction l as [|c l IH]; intros off bl Hwf Hnd Habs Hlen.
  - exists bl. split; [done|]. split; [done|]. cbn. by rewrite app_nil_r.
  - apply NoDup_cons in Hnd as [Hc Hnd]. cbn [put_blocks].
    destruct (add_block max off (u_type U c)) as [b o] eqn:E.
    destruct (sm_emplace_absent w32 bl c (BMeta c b)) as (bl1 & Hem & Hwf1 & Hd1 & Ha1); [done|apply Habs; by left| |].
    { rewrite (swf_size _ _ Hwf). cbn [length] in Hlen. lia. }
    rewrite Hem. cbn [mbind option_bind fst].
    destruct (IH o bl1) as (bl' & Hrun & Hwf' & Hd'); [done|done| | |].
    { intros c' Hc'. rewrite Ha1. rewrite lookup_insert_ne; [apply Habs; by right|]. by intros ->. }
    { rewrite Hd1, app_length. cbn [length] in *. lia. }
    exists bl'. split; [done|]. split; [done|]. rewrite Hd', Hd1. rewrite fmap_cons. cbn [add_blocks].
    rewrite E. destruct (add_blocks max o (u_type U <$> l)) as [bs e]. cbn [fst zip_with].
    by rewrite <- app_assoc.
Qed.

Hypothesis HU : u_wf U.

Lemma ar_new_spec m : ms_wf m → u_ent U ∉ ms_metas m →
  match get_max_size (u_type U <$> ms_metas m) with
  | None => ar_new U m = Throw InsufficientChunkSize
  | Some _ => ∃ a, ar_new U m = Ok a ∧ ar_repr true a (ms_metas m) [[]] ∧ ar_comps a = m
  end.
Proof.
  intros Hm Hent. unfold ar_new. destruct (get_max_size (u_type U <$> ms_metas m)) as [max|] eqn:Emax; [|done].
  set (cs := ms_metas m) in *.
  assert (layout (u_type U <$> cs) = Some (max, init_blocks max (u_type U <$> cs))) as Hlay.
  { unfold layout. by rewrite Emax. }
  destruct (C19_blocks_in_order _ _ _ Hlay) as [_ Hpos].
  assert (NoDup (u_ent U :: cs)) as Hnd by (constructor; [done|apply Hm]).
  assert (N.of_nat (length cs) <= 16384)%N as Hlen.
  { pose proof (max_fits _ _ Emax) as Hf. rewrite packed_sizes in Hf. unfold chunk_bytes in Hf.
    assert (∀ l, (N.of_nat (length l) <= sizes (u_type U <$> l))%N) as Hs.
    { induction l as [|c l IH]; [cbn; lia|]. rewrite fmap_cons, sizes_cons. cbn [length].
      pose proof (uw_size U HU c). lia. }
    pose proof (Hs cs). nia. }
  destruct (put_blocks_spec max (u_ent U :: cs) 0 sm_init) as (bl & Hbl & Hwf & Hd).
  { by apply sm_wf_init. } { done. }
  { intros c _. unfold sm_abs. cbn. done. }
  { cbn [sm_init sm_dense length]. rewrite Nat.add_0_l. unfold w32. lia. }
  rewrite Hbl. eexists. split; [done|]. split; [|done].
  cbn [sm_init sm_dense app] in Hd.
  assert (length (add_blocks max 0 (u_type U <$> u_ent U :: cs)).1 = length (u_ent U :: cs)) as Hlb.
  { destruct (add_blocks max 0 (u_type U <$> u_ent U :: cs)) as [bs e] eqn:E.
    destruct (add_blocks_spec _ _ _ _ _ E) as (_ & Ht & _). cbn [fst].
    apply (f_equal length) in Ht. rewrite !fmap_length in Ht. done. }
  assert (∀ c b, sm_abs bl !! c = Some b → ∃ (k : nat) x, (u_ent U :: cs) !! k = Some c ∧
    (add_blocks max 0 (u_type U <$> u_ent U :: cs)).1 !! k = Some x ∧ b = BMeta c x) as Hlook.
  { intros c b Hb. apply (sm_abs_Some w32) in Hb as [k Hk]; [|done]. rewrite Hd in Hk.
    apply lookup_zip_with_Some in Hk as (c' & b' & [= -> ->] & Hc' & Hb').
    apply lookup_zip_with_Some in Hb' as (c'' & x & -> & Hc'' & Hx).
    rewrite Hc' in Hc''. injection Hc'' as <-. eauto. }
  split; cbn [ar_max ar_blocks ar_comps ar_chunks ar_lost].
  - split.
    + done.
    + rewrite Hd. apply fst_zip. rewrite zip_with_length, Hlb. lia.
    + done.
    + intros c b Hb. destruct (Hlook c b Hb) as (k & x & Hc & Hx & ->). cbn [bm_id bm_block]. split; [done|].
      destruct (add_blocks max 0 (u_type U <$> u_ent U :: cs)) as [bs e] eqn:E.
      destruct (add_blocks_spec _ _ _ _ _ E) as (_ & Ht & _). cbn [fst] in Hx.
      assert ((b_type <$> bs) !! k = Some (b_type x)) as H1 by (by rewrite list_lookup_fmap, Hx).
      rewrite Ht, list_lookup_fmap, Hc in H1. cbn in H1. congruence.
    + intros c b c' b' i j Hb Hb' Hi Hj Ea.
      destruct (Hlook c b Hb) as (k & x & Hc & Hx & ->). destruct (Hlook c' b' Hb') as (k' & x' & Hc' & Hx' & ->).
      unfold addr in Ea. cbn [bm_block] in Ea.
      destruct (add_blocks max 0 (u_type U <$> u_ent U :: cs)) as [bs e] eqn:E.
      destruct (add_blocks_spec _ _ _ _ _ E) as (_ & Ht & _ & Hdis). cbn [fst] in *.
      assert (b_type x = u_type U c) as Htx.
      { assert ((b_type <$> bs) !! k = Some (b_type x)) as H1 by (by rewrite list_lookup_fmap, Hx).
        rewrite Ht, list_lookup_fmap, Hc in H1. cbn in H1. congruence. }
      assert (b_type x' = u_type U c') as Htx'.
      { assert ((b_type <$> bs) !! k' = Some (b_type x')) as H1 by (by rewrite list_lookup_fmap, Hx').
        rewrite Ht, list_lookup_fmap, Hc' in H1. cbn in H1. congruence. }
      unfold cell_offset in Ea. pose proof (uw_size U HU c) as Hs. pose proof (uw_size U HU c') as Hs'.
      rewrite <- Htx in Hs. rewrite <- Htx' in Hs'.
      assert (N.of_nat i < max)%N as HiN by lia. assert (N.of_nat j < max)%N as HjN by lia.
      destruct (lt_eq_lt_dec k k') as [[Hkk| ->]|Hkk].
      * pose proof (Hdis k k' x x' Hkk Hx Hx'). nia.
      * rewrite Hc in Hc'. injection Hc' as <-. split; [done|]. rewrite Hx in Hx'. injection Hx' as <-. nia.
      * pose proof (Hdis k' k x' x Hkk Hx' Hx). nia.
  - lia.
  - done.
  - done.
  - done.
  - constructor; [|constructor]. apply ck_new_repr.
  - done.
  - by rewrite N2Nat.id.
Qed.

(** Chunks. *)
Lemma ar_chunk s a cs rowss c rows : ar_repr s a cs rowss → rowss !! c = Some rows →
  ∃ k, ar_chunks a !! c = Some k ∧ ck_repr U s (ar_blocks a) cs (ar_max a) k rows.
Proof. intros Hr Hc. destruct (Forall2_lookup_r _ _ _ _ _ (ap_ks _ _ _ _ Hr) Hc) as (k & ? & ?). eauto. Qed.

Lemma ar_len s a cs rowss : ar_repr s a cs rowss → length (ar_chunks a) = length rowss.
Proof. intros Hr. by eapply Forall2_length, ap_ks. Qed.

Lemma ar_last s a cs rowss : ar_repr s a cs rowss →
  ∃ rows k, rowss !! (length rowss - 1) = Some rows ∧ last rowss = Some rows ∧
    ar_chunks a !! (length rowss - 1) = Some k ∧ last (ar_chunks a) = Some k ∧
    ck_repr U s (ar_blocks a) cs (ar_max a) k rows.
Proof.
  intros Hr. pose proof (ap_ne _ _ _ _ Hr) as Hne.
  destruct (lookup_lt_is_Some_2 rowss (length rowss - 1)) as [rows Hrows]; [destruct rowss; [done|cbn; lia]|].
  destruct (ar_chunk _ _ _ _ _ _ Hr Hrows) as (k & Hk & Hrk). exists rows, k.
  rewrite !last_lookup, (ar_len _ _ _ _ Hr). replace (pred (length rowss)) with (length rowss - 1) by lia. done.
Qed.

(** Changing one chunk. *)
Lemma ar_put_chunk s a cs rowss c k' rows' (Hc : c < length rowss) :
  ar_repr s a cs rowss → ck_repr U s (ar_blocks a) cs (ar_max a) k' rows' →
  ar_repr s (ar_with_chunks a (<[c := k']> (ar_chunks a))) cs (<[c := rows']> rowss).
Proof.
  intros [] Hk. split; try done; cbn [ar_with_chunks ar_max ar_blocks ar_comps ar_chunks ar_lost].
  - intros E. apply (f_equal length) in E. rewrite insert_length in E. cbn in E. lia.
  - by apply Forall2_insert.
Qed.

Lemma alter_insert {A} (f : A → A) c (l : list A) x : l !! c = Some x → alter f c l = <[c := f x]> l.
Proof.
  intros H. apply list_eq. intros i. destruct (decide (i = c)) as [->|Hne].
  - rewrite list_lookup_alter, H, list_lookup_insert; [done|by eapply lookup_lt_Some].
  - by rewrite list_lookup_alter_ne, list_lookup_insert_ne.
Qed.

(** The chunk with room. *)
Lemma ensure_free_spec s a cs rowss : ar_repr s a cs rowss →
  ∃ a' rowss' rows, ar_ensure_free a = (a', Ok (length rowss' - 1)) ∧ ar_repr s a' cs rowss' ∧ same_arch a a' ∧
    (rowss' = rowss ∨ rowss' = rowss ++ [[]]) ∧
    rowss' !! (length rowss' - 1) = Some rows ∧ length rows < ar_max a.
Proof.
  intros Hr. destruct (ar_last _ _ _ _ Hr) as (rows & k & Hrows & Hl & Hk & Hlk & Hrk).
  unfold ar_ensure_free. rewrite Hlk. rewrite (full_iff _ _ _ _ Hrk).
  case_bool_decide as Hfull.
  - exists (ar_with_chunks a (ar_chunks a ++ [ck_new (ar_max a)])), (rowss ++ [[]]), [].
    rewrite app_length. cbn [length]. rewrite (ar_len _ _ _ _ Hr).
    replace (length rowss + 1 - 1) with (length rowss) by lia.
    split; [done|]. split.
    { destruct Hr. split; try done; cbn [ar_with_chunks ar_max ar_blocks ar_comps ar_chunks ar_lost].
      - by destruct rowss.
      - apply Forall2_app; [done|]. constructor; [apply ck_new_repr|constructor]. }
    split; [done|]. split; [by right|]. rewrite list_lookup_middle by done. split; [done|]. apply Hr.
  - exists a, rowss, rows. rewrite (ar_len _ _ _ _ Hr). split; [done|]. split; [done|]. split; [done|].
    split; [by left|]. split; [done|]. pose proof (cr_le _ _ _ _ _ _ _ Hrk). lia.
Qed.

Lemma free_at rowss rowss' q : (rowss' = rowss ∨ rowss' = rowss ++ [[]]) → at_ rowss' q = at_ rowss q.
Proof. intros [->| ->]; [done|apply at_snoc_nil]. Qed.

(** archetype::emplace. *)
Lemma ar_emplace_spec s a cs rowss h args : ar_repr s a cs rowss → args.*1 ≡ₚ cs →
  ∃ a' rowss' p, ar_emplace U h args a = (a', Ok p) ∧ ar_repr s a' cs rowss' ∧ same_arch a a' ∧
    inserted rowss p (h, list_to_map args) rowss' ∧ ¬ hole rowss' ∧ length rowss' ≤ S (length rowss).
Proof.
  intros Hr Hperm. destruct (ensure_free_spec _ _ _ _ Hr) as (a1 & rs1 & rows & Hrun & Hr1 & Hs1 & Heq & Hrows & Hlt).
  unfold ar_emplace, bind at 1. rewrite Hrun. unfold bind at 1, get.
  destruct (ar_chunk _ _ _ _ _ _ Hr1 Hrows) as (k & Hk & Hrk).
  unfold bind at 1, on_chunk at 1. rewrite Hk.
  assert (ar_with_chunks a1 (<[length rs1 - 1:=k]> (ar_chunks a1)) = a1) as ->.
  { unfold ar_with_chunks. rewrite list_insert_id by done. by destruct a1. }
  unfold bind at 1, on_chunk at 1. rewrite Hk.
  destruct (emplace_back_repr U (ap_bl _ _ _ _ Hr1) s k rows h args) as (k' & Hem & Hrk'); [done| |done|].
  { destruct Hs1 as (-> & _). lia. }
  rewrite Hem. cbn [ret].
  pose proof (lookup_lt_Some _ _ _ Hrows) as Hlen.
  eexists _, (<[length rs1 - 1 := rows ++ [(h, list_to_map args)]]> rs1), _. split.
  { unfold ret. rewrite (ar_len _ _ _ _ Hr1), (cr_size _ _ _ _ _ _ _ Hrk). done. }
  split; [by eapply ar_put_chunk|]. split; [done|]. split; [split|split].
  - rewrite <- (free_at _ _ _ Heq). unfold at_. cbn [fst snd]. rewrite Hrows. by apply lookup_ge_None_2.
  - intros q. erewrite <- (alter_insert (λ l, l ++ [_])) by done. rewrite (at_alter_snoc _ _ _ _ _ Hrows).
    by rewrite (free_at _ _ _ Heq).
  - intros [Hl _]. rewrite last_lookup, insert_length in Hl. rewrite list_lookup_insert_Some in Hl.
    destruct Hl as [(_ & Hl & _)|[Hl _]]; [by destruct rows|lia].
  - rewrite insert_length. destruct Heq as [->| ->]; rewrite ?app_length; cbn; lia.
Qed.

(** Memory of an archetype: the object at offset [o] of chunk [c]. *)
Definition am (a : archetype) (c : nat) (o : N) : option cell :=
  match ar_chunks a !! c with Some k => ck_mem k !! o | None => None end.

Definition same_meta (k k' : chunk) : Prop := ck_size k' = ck_size k ∧ ck_max k' = ck_max k ∧ ck_lost k' = ck_lost k.

Lemma am_assign a c o x : is_Some (am a c o) →
  ∃ a', on_chunk c (assign_obj o x) a = (a', Ok tt) ∧ a' = ar_with_chunks a (ar_chunks a') ∧
    Forall2 same_meta (ar_chunks a) (ar_chunks a') ∧
    (∀ c' o', am a' c' o' = if decide ((c', o') = (c, o)) then Some x else am a c' o').
Proof.
  unfold am. intros [y Hy]. destruct (ar_chunks a !! c) as [k|] eqn:Hk; [|done].
  unfold on_chunk. rewrite Hk. unfold assign_obj. rewrite Hy. eexists. split; [done|]. split; [done|].
  cbn [ar_with_chunks ar_chunks]. split.
  - rewrite <- (list_insert_id (ar_chunks a) c k Hk) at 1. apply Forall2_insert; [|done].
    by apply Forall_Forall2_diag, Forall_true.
  - intros c' o'. destruct (decide (c' = c)) as [->|Hne].
    + rewrite list_lookup_insert by (by eapply lookup_lt_Some). rewrite Hk. cbn [ck_mem].
      destruct (decide (o' = o)) as [->|Hno].
      * rewrite decide_True by done. apply lookup_insert.
      * rewrite decide_False by congruence. by apply lookup_insert_ne.
    + rewrite decide_False by congruence. by rewrite list_lookup_insert_ne.
Qed.

Lemma am_take a c o x : am a c o = Some x →
  ∃ a', on_chunk c (take_obj o) a = (a', Ok x) ∧ a' = ar_with_chunks a (ar_chunks a') ∧
    Forall2 same_meta (ar_chunks a) (ar_chunks a') ∧
    (∀ c' o', am a' c' o' = if decide ((c', o') = (c, o)) then Some (moved_from x) else am a c' o').
Proof.
  intros Hx. destruct (am_assign a c o (moved_from x)) as (a' & Hrun & H); [eauto|]. exists a'. split; [|done].
  revert Hrun Hx. unfold am, on_chunk, take_obj, bind, read_obj, ret.
  destruct (ar_chunks a !! c) as [k|]; [|done]. unfold assign_obj. intros Hrun Hx. rewrite Hx in *. rewrite Hx.
  by injection Hrun as <-.
Qed.

Lemma same_meta_trans k1 k2 k3 : same_meta k1 k2 → same_meta k2 k3 → same_meta k1 k3.
Proof. intros (? & ? & ?) (? & ? & ?). repeat split; congruence. Qed.

Lemma swap_loop {A} (lst : list A) (f g : A → N) (c l : nat) a :
  NoDup (f <$> lst) → NoDup (g <$> lst) →
  (∀ x y, x ∈ lst → y ∈ lst → (c, f x) ≠ (l, g y)) →
  (∀ x, x ∈ lst → is_Some (am a c (f x))) → (∀ x, x ∈ lst → is_Some (am a l (g x))) →
  ∃ a', forM lst (λ x, let! v := on_chunk l (take_obj (g x)) in on_chunk c (assign_obj (f x) v)) a = (a', Ok tt) ∧
    a' = ar_with_chunks a (ar_chunks a') ∧ Forall2 same_meta (ar_chunks a) (ar_chunks a') ∧
    (∀ x, x ∈ lst → am a' c (f x) = am a l (g x)) ∧
    (∀ x, x ∈ lst → am a' l (g x) = moved_from <$> am a l (g x)) ∧
    (∀ c' o, (∀ x, x ∈ lst → (c', o) ≠ (c, f x) ∧ (c', o) ≠ (l, g x)) → am a' c' o = am a c' o).
Proof.
  revert a. induction lst as [|x lst IH]; intros a Hf Hg Hdis Hlf Hlg; cbn [forM].
  - exists a. split; [done|]. split; [by destruct a|]. split; [by apply Forall_Forall2_diag, Forall_true|].
    repeat split; intros; set_solver.
  - rewrite fmap_cons in Hf, Hg. apply NoDup_cons in Hf as [Hxf Hf]. apply NoDup_cons in Hg as [Hxg Hg].
    destruct (Hlg x) as [v Hv]; [by left|].
    destruct (am_take a l (g x) v Hv) as (a1 & Hr1 & Ha1 & Hm1 & Ham1).
    assert (∀ y, y ∈ lst → f y ≠ f x) as Hnf.
    { intros y Hy E. apply Hxf. rewrite <- E. by apply elem_of_list_fmap_1. }
    assert (∀ y, y ∈ lst → g y ≠ g x) as Hng.
    { intros y Hy E. apply Hxg. rewrite <- E. by apply elem_of_list_fmap_1. }
    destruct (am_assign a1 c (f x) v) as (a2 & Hr2 & Ha2 & Hm2 & Ham2).
    { rewrite Ham1. case_decide; [eauto|]. apply Hlf. by left. }
    assert (∀ y, y ∈ lst → am a2 l (g y) = am a l (g y)) as Eg.
    { intros y Hy. rewrite Ham2, Ham1. rewrite decide_False by (intros E; symmetry in E; revert E; apply Hdis; (by left) || by right).
      rewrite decide_False; [done|]. intros [= E]. by eapply Hng. }
    assert (∀ y, y ∈ lst → am a2 c (f y) = am a c (f y)) as Ef.
    { intros y Hy. rewrite Ham2, Ham1. rewrite decide_False by (intros [= E]; by eapply Hnf).
      rewrite decide_False; [done|]. apply Hdis; (by left) || by right. }
    destruct (IH a2) as (a' & Hr' & Ha' & Hm' & Hin & Hsrc & Hout); [done|done| | | |].
    { intros y z Hy Hz. apply Hdis; by right. }
    { intros y Hy. rewrite Ef by done. apply Hlf. by right. }
    { intros y Hy. rewrite Eg by done. apply Hlg. by right. }
    exists a'. unfold bind at 1 2. rewrite Hr1, Hr2. split; [exact Hr'|]. split; [|split; [|split; [|split]]].
    + rewrite Ha', Ha2, Ha1. done.
    + eapply Forall2_transitive; [apply same_meta_trans|exact Hm1|].
      eapply Forall2_transitive; [apply same_meta_trans|exact Hm2|exact Hm'].
    + intros y [->|Hy]%elem_of_cons; [|by rewrite Hin, Eg].
      rewrite Hout.
      * rewrite Ham2, decide_True by done. done.
      * intros y Hy. split; [intros [= E]; by eapply Hnf|apply Hdis; (by left) || by right].
    + intros y [->|Hy]%elem_of_cons; [|by rewrite Hsrc, Eg].
      rewrite Hout.
      * rewrite Ham2. rewrite decide_False by (intros E; symmetry in E; revert E; apply Hdis; by left).
        rewrite Ham1, decide_True by done. by rewrite Hv.
      * intros y Hy. split; [intros E; symmetry in E; revert E; apply Hdis; (by left) || by right|intros [= E]; by eapply Hng].
    + intros c' o Ho. rewrite Hout.
      * rewrite Ham2, Ham1. destruct (Ho x) as [H1 H2]; [by left|]. by rewrite !decide_False.
      * intros y Hy. apply Ho. by right.
Qed.

(** All values of a row moved out. *)
Definition all_moved (r : row) : row := (r.1, (λ _, Moved) <$> r.2).

Lemma all_moved_cell r c : rcell U (all_moved r) c = moved_from <$> rcell U r c.
Proof.
  unfold rcell, all_moved. cbn [fst snd]. case_decide; [done|]. rewrite lookup_fmap. by destruct (r.2 !! c).
Qed.

Lemma am_cell s a cs rowss p r c : ar_repr s a cs rowss → at_ rowss p = Some r → full cs r → c ∈ u_ent U :: cs →
  am a p.1 (ad (ar_blocks a) c p.2) = rcell U r c.
Proof.
  intros Hr (rows & Hc & Hi)%at_Some Hf Hcs. destruct (ar_chunk _ _ _ _ _ _ Hr Hc) as (k & Hk & Hrk).
  unfold am. rewrite Hk. by eapply cell_eq.
Qed.

(** Row [p] becomes row [q], and [q] is moved out. *)
Lemma swap_rows s a cs rowss p q r0 r :
  ar_repr s a cs rowss → p ≠ q → at_ rowss p = Some r0 → full cs r0 → at_ rowss q = Some r → full cs r →
  ∃ a', forM (sm_dense (ar_blocks a)) (λ e,
            let! ob := blk_find (ar_blocks a) e.1 in
            let! x := on_chunk q.1 (take_obj (addr ob q.2)) in
            on_chunk p.1 (assign_obj (addr e.2 p.2) x)) a = (a', Ok tt) ∧ same_arch a a' ∧
    ar_repr s a' cs (alter (<[q.2 := all_moved r]>) q.1 (alter (<[p.2 := r]>) p.1 rowss)).
Proof.
  intros Hr Hpq Hp Hf0 Hq Hf.
  pose proof (ap_bl _ _ _ _ Hr) as Hbl.
  rewrite (forM_dense U Hbl _ (λ c, let! x := on_chunk q.1 (take_obj (ad (ar_blocks a) c q.2)) in
     on_chunk p.1 (assign_obj (ad (ar_blocks a) c p.2) x))).
  2:{ intros e He st. unfold bind at 1. destruct (blk_find_ok U Hbl e.1 st) as (b & Hb & _ & Hba).
      { by eapply bl_lookup_inv. }
      rewrite Hb, Hba. replace (addr e.2 p.2) with (ad (ar_blocks a) e.1 p.2) by (unfold ad; by rewrite He). done. }
  assert (∀ x r, at_ rowss x = Some r → x.2 < ar_max a) as Hlt.
  { intros x r' (rows & Hc & Hi)%at_Some. destruct (ar_chunk _ _ _ _ _ _ Hr Hc) as (k & Hk & Hrk).
    pose proof (cr_le _ _ _ _ _ _ _ Hrk). pose proof (lookup_lt_Some _ _ _ Hi). lia. }
  pose proof (Hlt _ _ Hp) as Hpm. pose proof (Hlt _ _ Hq) as Hqm.
  assert (∀ x y, x ∈ u_ent U :: cs → y ∈ u_ent U :: cs → (p.1, ad (ar_blocks a) x p.2) ≠ (q.1, ad (ar_blocks a) y q.2)) as Hdis.
  { intros x y Hx Hy [= E1 E2]. apply (ad_inj U Hbl) in E2 as [_ E2]; try done. apply Hpq. destruct p, q. cbn in *. congruence. }
  destruct (swap_loop (u_ent U :: cs) (λ c, ad (ar_blocks a) c p.2) (λ c, ad (ar_blocks a) c q.2) p.1 q.1 a)
    as (a' & Hrun & Ha' & Hmeta & Hdst & Hsrc & Hout).
  { by apply (ad_nodup U Hbl); [|apply Hbl|]. }
  { by apply (ad_nodup U Hbl); [|apply Hbl|]. }
  { done. }
  { intros c Hc. rewrite (am_cell _ _ _ _ _ _ _ Hr Hp Hf0 Hc). by eapply rcell_live. }
  { intros c Hc. rewrite (am_cell _ _ _ _ _ _ _ Hr Hq Hf Hc). by eapply rcell_live. }
  exists a'. split; [exact Hrun|]. 
  assert (same_arch a a') as Hsame by (by rewrite Ha'). split; [done|].
  set (rowss' := alter _ q.1 (alter _ p.1 rowss)).
  assert (∀ x, at_ rowss' x = if decide (x = q) then Some (all_moved r) else if decide (x = p) then Some r else at_ rowss x) as Hat.
  { intros x. unfold rowss'. rewrite at_alter_insert.
    2:{ rewrite at_alter_insert by (destruct p; cbn; eauto). case_decide; [eauto|]. destruct q; cbn; eauto. }
    rewrite at_alter_insert by (destruct p; cbn; eauto). destruct p, q; cbn. done. }
  assert (length rowss' = length rowss) as Hlen by (unfold rowss'; by rewrite !alter_length).
  destruct Hsame as (Em & Eb & Ec).
  assert (ar_lost a' = ar_lost a) as El by (by rewrite Ha').
  assert (full cs (all_moved r)) as Hfm. { unfold full, all_moved. cbn [snd]. by rewrite dom_fmap_L. }
  split; rewrite ?Em, ?Eb, ?Ec, ?El; try apply Hr.
  - intros E. apply (f_equal length) in E. rewrite Hlen in E. pose proof (ap_ne _ _ _ _ Hr). by destruct rowss.
  - apply Forall2_same_length_lookup. split.
    { rewrite Hlen, <- (ar_len _ _ _ _ Hr). symmetry. by eapply Forall2_length. }
    intros c k' rows' Hk' Hrows'.
    destruct (Forall2_lookup_r _ _ _ _ _ Hmeta Hk') as (k & Hk & Hs & Hm & Hl).
    destruct (Forall2_lookup_l _ _ _ _ _ (ap_ks _ _ _ _ Hr) Hk) as (rows & Hrows & Hrk).
    assert (length rows' = length rows) as Hlr.
    { unfold rowss' in Hrows'. destruct (decide (c = q.1)) as [->|]; [rewrite list_lookup_alter in Hrows'|rewrite list_lookup_alter_ne in Hrows' by done];
      (destruct (decide (p.1 = q.1)) as [Epq|]; [try rewrite Epq in Hrows'; try rewrite list_lookup_alter in Hrows'|]);
      repeat (rewrite list_lookup_alter in Hrows' || rewrite list_lookup_alter_ne in Hrows' by done);
      try (destruct (decide (c = p.1)) as [->|]; [rewrite list_lookup_alter in Hrows'|rewrite list_lookup_alter_ne in Hrows' by done]);
      rewrite Hrows in Hrows'; cbn in Hrows'; injection Hrows' as <-; by rewrite ?insert_length. }
    assert (∀ i, rows' !! i = if decide ((c, i) = q) then Some (all_moved r) else if decide ((c, i) = p) then Some r else rows !! i) as Hrow.
    { intros i. rewrite <- (at_lookup _ _ i _ Hrows'), <- (at_lookup _ _ i _ Hrows). apply Hat. }
    assert (∀ o, ck_mem k' !! o = am a' c o) as Ek'. { intros o. unfold am. by rewrite Hk'. }
    assert (∀ o, ck_mem k !! o = am a c o) as Ek. { intros o. unfold am. by rewrite Hk. }
    pose proof Hrk as [cr_size0 cr_max0 cr_le0 cr_dom0 cr_mem0 cr_lost0 cr_clean0].
    split.
    + congruence.
    + congruence.
    + lia.
    + intros i r'. rewrite Hrow. case_decide; [intros [= <-]; by rewrite Hfm|].
      case_decide; [intros [= <-]; by rewrite Hf|]. apply cr_dom0.
    + intros i r' x y. rewrite Hrow. rewrite Ek'. case_decide as E1; [|case_decide as E2].
      * intros [= <-] Hx Hy. rewrite all_moved_cell in Hy.
        pose proof (Hsrc x Hx) as H. rewrite (am_cell _ _ _ _ _ _ _ Hr Hq Hf Hx) in H. subst q. cbn [fst snd] in H. congruence.
      * intros [= <-] Hx Hy. pose proof (Hdst x Hx) as H. rewrite (am_cell _ _ _ _ _ _ _ Hr Hq Hf Hx) in H. subst p. cbn [fst snd] in H. congruence.
      * intros Hi Hx Hy. rewrite Hout.
        { rewrite <- Ek. by eapply cr_mem0. }
        pose proof (lookup_lt_Some _ _ _ Hi).
        intros z Hz. split; intros [= E3 E4]; apply (ad_inj U Hbl) in E4 as [_ E4]; try done; try lia;
          (apply E1 || apply E2); destruct p, q; cbn in *; congruence.
    + intros Es. rewrite Hl. by apply cr_lost0.
    + intros Es o Ho. rewrite Ek' in Ho.
      assert (is_Some (am a c o)) as Ho'.
      { destruct (decide (Exists (λ x, (c, o) = (p.1, ad (ar_blocks a) x p.2) ∨ (c, o) = (q.1, ad (ar_blocks a) x q.2)) (u_ent U :: cs))) as [Hx|Hx].
        - apply Exists_exists in Hx as (x & Hx & [[= -> ->]|[= -> ->]]).
          + rewrite (am_cell _ _ _ _ _ _ _ Hr Hp Hf0 Hx). by eapply rcell_live.
          + rewrite (am_cell _ _ _ _ _ _ _ Hr Hq Hf Hx). by eapply rcell_live.
        - rewrite Hout in Ho; [done|]. intros x Hx'. split; intros E; apply Hx; apply Exists_exists; exists x; (split; [done|]); [by left|by right]. }
      rewrite <- Ek in Ho'. destruct (cr_clean0 Es o Ho') as (x & i & r' & Hx & Hi & Hcell & ->).
      pose proof (Hrow i) as Hi'.
      exists x, i. destruct (decide ((c, i) = q)); [|destruct (decide ((c, i) = p))].
      * eexists. split; [done|]. split; [done|]. split; [by eapply rcell_live|done].
      * eexists. split; [done|]. split; [done|]. split; [by eapply rcell_live|done].
      * exists r'. rewrite Hi'. done.
Qed.

(** The state of [on_chunk c get]. *)
Lemma on_chunk_get a c k : ar_chunks a !! c = Some k → on_chunk c get a = (a, Ok k).
Proof.
  intros Hk. unfold on_chunk, get. rewrite Hk. unfold ar_with_chunks. rewrite list_insert_id by done. by destruct a.
Qed.

Lemma on_chunk_run {X} a c k (m : M chunk X) k' o : ar_chunks a !! c = Some k → m k = (k', o) →
  on_chunk c m a = (ar_with_chunks a (<[c := k']> (ar_chunks a)), o).
Proof. intros Hk Hm. unfold on_chunk. by rewrite Hk, Hm. Qed.

Lemma fulls_rows cs rowss c rows : fulls cs rowss → rowss !! c = Some rows → ∀ r, r ∈ rows → full cs r.
Proof. intros Hf Hc r [i Hi]%elem_of_list_lookup. apply (Hf (c, i)). by rewrite (at_lookup _ _ _ _ Hc). Qed.

Lemma destruct_last {A} (l : list A) : (∃ l' x, l = l' ++ [x]) ∨ l = [].
Proof. induction l as [|x l _] using rev_ind; [by right|left]. eauto. Qed.

Lemma snoc_of_lookup {A} (l : list A) i x : l !! i = Some x → S i = length l → ∃ l', l = l' ++ [x] ∧ length l' = i.
Proof.
  intros Hi Hl. destruct (destruct_last l) as [(l' & y & ->)| ->]; [|by rewrite lookup_nil in Hi].
  rewrite app_length in Hl. cbn in Hl. assert (i = length l') as -> by lia.
  rewrite list_lookup_middle in Hi by done. injection Hi as ->. eauto.
Qed.

(** Popping the last row of a chunk. *)
Lemma ar_pop_spec s a cs rowss c rows r : ar_repr s a cs rowss → rowss !! c = Some (rows ++ [r]) → full cs r →
  ∃ a', on_chunk c (ck_pop_back (ar_blocks a)) a = (a', Ok tt) ∧ same_arch a a' ∧
    ar_repr s a' cs (alter (λ _, rows) c rowss).
Proof.
  intros Hr Hc Hf. destruct (ar_chunk _ _ _ _ _ _ Hr Hc) as (k & Hk & Hrk).
  destruct (pop_back_repr U (ap_bl _ _ _ _ Hr) s k rows r Hrk Hf) as (k' & Hpop & Hrk').
  eexists. split; [by eapply on_chunk_run|]. split; [done|].
  rewrite (alter_insert _ _ _ _ Hc). apply ar_put_chunk; [by eapply lookup_lt_Some|done|done].
Qed.

(** chunk::swap_erase. *)
Lemma ck_swap_erase_spec s a cs rowss p r rows : ar_repr s a cs rowss → fulls cs rowss →
  at_ rowss p = Some r → rowss !! p.1 = Some rows →
  if decide (S p.2 = length rows ∨ last rowss ≠ Some []) then
    ∃ a' rowss' moved, ck_swap_erase U p.1 (length rowss - 1) p.2 a = (a', Ok moved) ∧ same_arch a a' ∧
      ar_repr s a' cs rowss' ∧ length rowss' = length rowss ∧ erased rowss p rowss' moved
  else (ck_swap_erase U p.1 (length rowss - 1) p.2 a).2 = UB.
Proof.
  intros Hr Hf Hp Hrows.
  enough (∃ a' o, ck_swap_erase U p.1 (length rowss - 1) p.2 a = (a', o) ∧
    if decide (S p.2 = length rows ∨ last rowss ≠ Some []) then
      ∃ rowss' moved, o = Ok moved ∧ same_arch a a' ∧ ar_repr s a' cs rowss' ∧ length rowss' = length rowss ∧ erased rowss p rowss' moved
    else o = UB) as (a' & o & Hrun & H).
  { rewrite Hrun. case_decide; [|done]. destruct H as (rowss' & moved & -> & H). exists a', rowss', moved. done. }
  pose proof Hp as (rows' & Hrows' & Hi)%at_Some. rewrite Hrows in Hrows'. injection Hrows' as <-.
  destruct (ar_chunk _ _ _ _ _ _ Hr Hrows) as (k & Hk & Hrk). pose proof (lookup_lt_Some _ _ _ Hi) as Hlt.
  unfold ck_swap_erase, bind at 1, get. unfold bind at 1. fold (get (S := chunk)).
  change (λ s0 : chunk, (s0, Ok s0)) with (get (S := chunk)).
  rewrite (on_chunk_get _ _ _ Hk). rewrite (cr_size _ _ _ _ _ _ _ Hrk).
  destruct (decide (length rows ≤ p.2)); [lia|].
  destruct (decide (length rows = 1 ∨ p.2 = length rows - 1)) as [Hpop|Hpop].
  - destruct (snoc_of_lookup _ _ _ Hi ltac:(lia)) as (rows' & -> & Hlen).
    destruct (ar_pop_spec _ _ _ _ _ _ _ Hr Hrows) as (a' & Hrun & Hsame & Hr'); [by eapply Hf|].
    unfold bind at 1. rewrite Hrun. eexists _, _. split; [done|]. rewrite decide_True by (left; rewrite app_length; cbn; lia).
    exists (alter (λ _, rows') p.1 rowss), None. split; [done|]. split; [done|].
    split; [done|]. split; [by rewrite alter_length|]. intros q. rewrite (at_alter_pop _ _ _ _ _ Hrows).
    rewrite Hlen. by destruct p.
  - destruct (ar_last _ _ _ _ Hr) as (lrows & lk & Hlrows & Hlast & Hlk & _ & Hlrk).
    unfold bind at 1. rewrite (on_chunk_get _ _ _ Hlk). rewrite (empty_iff _ _ _ _ Hlrk). rewrite Hlast.
    destruct (destruct_last lrows) as [(lr' & rl & ->)| ->].
    2:{ rewrite bool_decide_true by done. eexists _, _. split; [done|]. rewrite decide_False; [done|]. intros [?|?]; [lia|done]. }
    rewrite bool_decide_false by (by destruct lr').
    rewrite (cr_size _ _ _ _ _ _ _ Hlrk), app_length. cbn [length].
    replace (length lr' + 1 - 1) with (length lr') by lia.
    set (l := length rowss - 1) in *.
    assert (at_ rowss (l, length lr') = Some rl) as Hq.
    { rewrite (at_lookup _ _ _ _ Hlrows). by rewrite list_lookup_middle. }
    assert ((l, length lr') ≠ p) as Hne.
    { intros <-. cbn [fst snd] in *. rewrite Hlrows in Hrows. injection Hrows as <-. rewrite app_length in Hpop. cbn in Hpop. lia. }
    unfold bind at 1. destruct (blk_at_ok U (ap_bl _ _ _ _ Hr) (u_ent U) a) as (eb & Heb & _ & Hea); [by left|].
    rewrite Heb. rewrite Hea. unfold bind at 1.
    erewrite on_chunk_run; [|exact Hlk|].
    2:{ unfold read_obj. rewrite (cr_mem _ _ _ _ _ _ _ Hlrk (length lr') rl (u_ent U) (CEnt rl.1)); [done| |by left|].
        - by rewrite list_lookup_middle.
        - unfold rcell. by rewrite decide_True. }
    assert (ar_with_chunks a (<[l:=lk]> (ar_chunks a)) = a) as ->.
    { unfold ar_with_chunks. rewrite list_insert_id by done. by destruct a. }
    destruct (swap_rows s a cs rowss p (l, length lr') r rl) as (a1 & Hrun1 & Hs1 & Hr1); [done|done|done|by eapply Hf|done|by eapply Hf|].
    cbn [fst snd] in Hrun1, Hr1. unfold bind at 1. rewrite Hrun1.
    set (rowss1 := alter _ l (alter _ p.1 rowss)) in *.
    assert (∀ x, at_ rowss1 x = if decide (x = (l, length lr')) then Some (all_moved rl) else if decide (x = p) then Some rl else at_ rowss x) as Hat.
    { intros x. unfold rowss1. rewrite at_alter_insert.
      2:{ rewrite at_alter_insert by (destruct p; cbn; eauto). case_decide; eauto. }
      rewrite at_alter_insert by (destruct p; cbn; eauto). by destruct p. }
    assert (∃ lr1, rowss1 !! l = Some (lr1 ++ [all_moved rl]) ∧ length lr1 = length lr') as (lr1 & Hlr1 & Hlen1).
    { assert (∃ rs, rowss1 !! l = Some rs ∧ length rs = S (length lr')) as (rs & Hrs & Hlrs).
      { unfold rowss1. rewrite list_lookup_alter. destruct (decide (p.1 = l)) as [->|].
        - rewrite list_lookup_alter, Hlrows. cbn. eexists. split; [done|]. rewrite !insert_length, app_length. cbn. lia.
        - rewrite list_lookup_alter_ne, Hlrows by done. cbn. eexists. split; [done|]. rewrite !insert_length, app_length. cbn. lia. }
      pose proof (Hat (l, length lr')) as Hx. rewrite decide_True in Hx by done. rewrite (at_lookup _ _ _ _ Hrs) in Hx.
      destruct (snoc_of_lookup _ _ _ Hx) as (l' & -> & Hl'); [done|]. eauto. }
    destruct (ar_pop_spec _ _ _ _ _ _ _ Hr1 Hlr1) as (a2 & Hrun2 & Hs2 & Hr2).
    { unfold full, all_moved. cbn [snd]. rewrite dom_fmap_L. by eapply Hf. }
    destruct Hs1 as (Em1 & Eb1 & Ec1). rewrite Eb1 in Hrun2.
    unfold bind at 1. rewrite Hrun2.
    eexists _, _. split; [done|]. rewrite decide_True by (right; by destruct lr').
    exists (alter (λ _, lr1) l rowss1), (Some rl.1). split; [done|]. split; [by eapply same_arch_trans|].
    split; [done|]. split; [unfold rowss1; by rewrite !alter_length|].
    exists (l, length lr'), rl. split; [done|]. split; [done|]. split; [done|].
    intros q. rewrite (at_alter_pop _ _ _ _ _ Hlr1). rewrite Hat, Hlen1.
    destruct (decide (q = (l, length lr'))) as [->|]; [|done]. by rewrite decide_False.
Qed.

(** The end of archetype::swap_erase: the emptied last chunk is released. *)
Lemma ar_drop_spec s a cs rowss : ar_repr s a cs rowss →
  ∃ a' rowss', (let! k := on_chunk (length rowss - 1) get in
      if ck_empty k && bool_decide (1 < length rowss) then ar_drop_chunk else ret tt) a = (a', Ok tt) ∧
    same_arch a a' ∧ ar_repr s a' cs rowss' ∧ (∀ q, at_ rowss' q = at_ rowss q) ∧
    length rowss' ≤ length rowss ∧ (length rowss ≤ 2 → ¬ hole rowss').
Proof.
  intros Hr. destruct (ar_last _ _ _ _ Hr) as (lrows & lk & Hlrows & Hlast & Hlk & Hkl & Hlrk).
  unfold bind at 1. rewrite (on_chunk_get _ _ _ Hlk). rewrite (empty_iff _ _ _ _ Hlrk).
  destruct (decide (hole rowss)) as [Hh|Hh].
  - destruct Hh as [Hl Hlen]. rewrite Hlast in Hl. injection Hl as ->.
    rewrite !bool_decide_true by done. cbn [andb]. unfold ar_drop_chunk. rewrite Hkl.
    destruct (destruct_repr U (ap_bl _ _ _ _ Hr) s lk [] Hlrk) as (k' & Hd & Hleak).
    { intros r Hx. by apply elem_of_nil in Hx. }
    rewrite Hd. 
    destruct (destruct_last rowss) as [(rs & rl & ->)| ->]; [|done].
    rewrite last_snoc in Hlast. injection Hlast as ->.
    pose proof (ap_ks _ _ _ _ Hr) as Hks.
    apply Forall2_app_inv_r in Hks as (ks & kl & Hks & Hkl' & Eks).
    apply Forall2_cons_inv_r in Hkl' as (k0 & ks0 & _ & Hn & ->). apply Forall2_nil_inv_r in Hn as ->.
    rewrite Eks in Hkl. rewrite last_snoc in Hkl. injection Hkl as ->.
    eexists _, rs. split; [done|]. split; [done|]. rewrite app_length in *. cbn [length] in *. split; [|split; [|split]].
    + destruct Hr. split; try done; cbn [ar_max ar_blocks ar_comps ar_chunks ar_lost].
      * destruct rs; [cbn in Hlen; lia|done].
      * rewrite Eks. by rewrite pop_back_snoc.
      * intros Es. rewrite (Hleak Es), (ap_lost0 Es). done.
    + intros q. symmetry. apply at_snoc_nil.
    + lia.
    + intros H2 [_ Hh]. lia.
  - assert ((bool_decide (lrows = []) && bool_decide (1 < length rowss)) = false) as ->.
    { apply not_true_is_false. intros [H1%bool_decide_eq_true H2%bool_decide_eq_true]%andb_prop. apply Hh. split; [congruence|done]. }
    exists a, rowss. done.
Qed.

(** archetype::swap_erase. *)
Lemma ar_swap_erase_spec s a cs rowss p r rows : ar_repr s a cs rowss → fulls cs rowss →
  at_ rowss p = Some r → rowss !! p.1 = Some rows →
  if decide (S p.2 = length rows ∨ last rowss ≠ Some []) then
    ∃ a' rowss' moved, ar_swap_erase U p.1 p.2 a = (a', Ok moved) ∧ same_arch a a' ∧
      ar_repr s a' cs rowss' ∧ erased rowss p rowss' moved ∧ length rowss' ≤ length rowss ∧
      (length rowss ≤ 2 → ¬ hole rowss')
  else (ar_swap_erase U p.1 p.2 a).2 = UB.
Proof.
  intros Hr Hf Hp Hrows. pose proof (ck_swap_erase_spec s a cs rowss p r rows Hr Hf Hp Hrows) as H.
  unfold ar_swap_erase, bind at 1, get. rewrite (ar_len _ _ _ _ Hr). 
  case_decide.
  - destruct H as (a1 & rowss1 & moved & Hrun & Hs & Hr1 & Hl1 & He).
    unfold bind at 1. rewrite Hrun.
    destruct (ar_drop_spec s a1 cs rowss1 Hr1) as (a2 & rowss2 & Hrun2 & Hs2 & Hr2 & Hat & Hlen & Hh).
    rewrite Hl1 in *. exists a2, rowss2, moved. split.
    { unfold bind at 1 2. unfold bind at 1, get in Hrun2.
      destruct (on_chunk (length rowss - 1) _ a1) as [a1' [k|e|]]; [|done|done]. rewrite Hrun2. done. }
    split; [by eapply same_arch_trans|]. split; [done|]. split; [|done].
    destruct moved as [h|]; cbn [erased] in *.
    + destruct He as (p2 & r2 & H1 & H2 & H3 & H4). exists p2, r2. split; [done|]. split; [done|]. split; [done|].
      intros q. by rewrite Hat.
    + intros q. by rewrite Hat.
  - unfold bind at 1. rewrite (ar_len _ _ _ _ Hr). unfold bind at 1. destruct (ck_swap_erase U p.1 (length rowss - 1) p.2 a) as [a1 o]. cbn [snd] in H. by subst o.
Qed.

(** Replacing one row. *)
Lemma ar_put_row s a cs rowss p r0 r k k' rows : ar_repr s a cs rowss → at_ rowss p = Some r0 →
  rowss !! p.1 = Some rows → ar_chunks a !! p.1 = Some k →
  ck_repr U s (ar_blocks a) cs (ar_max a) k' (<[p.2 := r]> rows) →
  ar_repr s (ar_with_chunks a (<[p.1 := k']> (ar_chunks a))) cs (alter (<[p.2 := r]>) p.1 rowss).
Proof.
  intros Hr Hp Hrows Hk Hk'. rewrite (alter_insert _ _ _ _ Hrows). apply ar_put_chunk; [by eapply lookup_lt_Some|done|done].
Qed.

Lemma at_put rowss p r0 r q : at_ rowss p = Some r0 →
  at_ (alter (<[p.2 := r]>) p.1 rowss) q = if decide (q = p) then Some r else at_ rowss q.
Proof. intros Hp. rewrite at_alter_insert; destruct p; cbn; eauto. Qed.

Lemma last_alter {A} (f : A → A) c (l : list A) :
  last (alter f c l) = (λ x, if decide (c = length l - 1) then f x else x) <$> last l.
Proof.
  rewrite !last_lookup, alter_length. replace (pred (length l)) with (length l - 1) by lia. case_decide as E.
  - subst c. by rewrite list_lookup_alter.
  - rewrite list_lookup_alter_ne by done. by destruct (l !! (length l - 1)).
Qed.

Lemma last_put (rowss : list (list row)) (p : nat * nat) (r : row) : last (alter (<[p.2 := r]>) p.1 rowss) = Some [] ↔ last rowss = Some [].
Proof.
  rewrite last_alter. destruct (last rowss) as [l|]; [|done]. cbn. case_decide; [|done].
  split; intros [= E]; f_equal; [|by subst l].
  apply (f_equal length) in E. rewrite insert_length in E. by apply nil_length_inv.
Qed.

Lemma hole_put (rowss : list (list row)) (p : nat * nat) (r : row) : hole (alter (<[p.2 := r]>) p.1 rowss) ↔ hole rowss.
Proof. unfold hole. by rewrite last_put, alter_length. Qed.

Lemma fulls_put cs rowss p r0 r : fulls cs rowss → at_ rowss p = Some r0 → full cs r →
  fulls cs (alter (<[p.2 := r]>) p.1 rowss).
Proof.
  intros Hf Hp Hr q r'. rewrite (at_put _ _ _ _ _ Hp). case_decide; [intros [= <-]; done|apply Hf].
Qed.

(** archetype::move. *)
Lemma ar_move_spec s1 s2 a cs rowss d cs2 rowss2 p r rows :
  ar_repr s1 a cs rowss → fulls cs rowss → ar_repr s2 d cs2 rowss2 →
  at_ rowss p = Some r → rowss !! p.1 = Some rows →
  if decide (S p.2 = length rows ∨ last rowss ≠ Some []) then
    ∃ a' d' rowss' rowss2' moved q, ar_move U p.1 p.2 (a, d) = ((a', d'), Ok (q, moved)) ∧
      same_arch a a' ∧ same_arch d d' ∧ ar_repr s1 a' cs rowss' ∧ ar_repr s2 d' cs2 rowss2' ∧
      erased rowss p rowss' moved ∧ inserted rowss2 q (r.1, restrict cs2 r.2) rowss2' ∧
      length rowss' ≤ length rowss ∧ (length rowss ≤ 2 → ¬ hole rowss') ∧
      length rowss2' ≤ S (length rowss2) ∧ ¬ hole rowss2'
  else (ar_move U p.1 p.2 (a, d)).2 = UB.
Proof.
  intros Hr Hf Hr2 Hp Hrows.
  enough (∃ a' d' o, ar_move U p.1 p.2 (a, d) = ((a', d'), o) ∧
    if decide (S p.2 = length rows ∨ last rowss ≠ Some []) then
    ∃ rowss' rowss2' moved q, o = Ok (q, moved) ∧
      same_arch a a' ∧ same_arch d d' ∧ ar_repr s1 a' cs rowss' ∧ ar_repr s2 d' cs2 rowss2' ∧
      erased rowss p rowss' moved ∧ inserted rowss2 q (r.1, restrict cs2 r.2) rowss2' ∧
      length rowss' ≤ length rowss ∧ (length rowss ≤ 2 → ¬ hole rowss') ∧
      length rowss2' ≤ S (length rowss2) ∧ ¬ hole rowss2'
    else o = UB) as (a' & d' & o & Hrun & H).
  { rewrite Hrun. case_decide; [|done]. destruct H as (rowss' & rowss2' & moved & q & -> & H). exists a', d', rowss', rowss2', moved, q. done. }
  destruct (ensure_free_spec _ _ _ _ Hr2) as (d1 & rs2 & rows2 & Hrun1 & Hr21 & Hs21 & Heq & Hrows2 & Hlt2).
  unfold ar_move, bind at 1, on_snd at 1. cbn [fst snd]. rewrite Hrun1.
  unfold bind at 1, on_fst at 1, get at 1. cbn [fst snd].
  unfold bind at 1, on_snd at 1, get at 1. cbn [fst snd].
  unfold bind at 1. cbn [fst snd].
  destruct (ar_chunk _ _ _ _ _ _ Hr Hrows) as (k & Hk & Hrk).
  destruct (ar_chunk _ _ _ _ _ _ Hr21 Hrows2) as (k2 & Hk2 & Hrk2).
  rewrite Hk, Hk2.
  pose proof Hp as (rows' & Hrows' & Hi)%at_Some. rewrite Hrows in Hrows'. injection Hrows' as <-.
  destruct (move_repr U (ap_bl _ _ _ _ Hr) (ap_bl _ _ _ _ Hr21) s1 s2 k k2 rows rows2 p.2 r) as (k' & k2' & Hmv & Hrk' & Hrk2').
  { done. } { done. } { done. } { by eapply Hf. } { destruct Hs21 as (-> & _). lia. }
  rewrite Hmv.
  set (r' := (r.1, moved_out cs2 r.2)) in *.
  pose proof (ar_put_row s1 a cs rowss p r r' k k' rows Hr Hp Hrows Hk Hrk') as Hra1.
  set (a1 := ar_with_chunks a _) in *. set (rowss1 := alter _ p.1 rowss) in *.
  assert (fulls cs rowss1) as Hf1.
  { eapply fulls_put; [done|done|]. unfold full, r'. cbn [snd]. rewrite moved_out_dom. by eapply Hf. }
  assert (at_ rowss1 p = Some r') as Hp1. { unfold rowss1. rewrite (at_put _ _ _ _ _ Hp). by rewrite decide_True. }
  assert (rowss1 !! p.1 = Some (<[p.2 := r']> rows)) as Hrows1. { unfold rowss1. by rewrite list_lookup_alter, Hrows. }
  pose proof (ar_swap_erase_spec s1 a1 cs rowss1 p r' _ Hra1 Hf1 Hp1 Hrows1) as Her. rewrite insert_length in Her.
  unfold bind at 1, on_fst at 1. cbn [fst snd].
  destruct (decide (S p.2 = length rows ∨ last rowss1 ≠ Some [])) as [Hc|Hc].
  - destruct Her as (a2 & rowss' & moved & Hrun2 & Hs2 & Hr2' & Her & Hlen & Hh).
    rewrite Hrun2. unfold bind at 1, on_snd at 1, get at 1. cbn [fst snd]. unfold ret.
    eexists _, _, _. split; [done|].
    rewrite decide_True. 2:{ destruct Hc as [?|Hc]; [by left|right]. intros E. apply Hc. by apply last_put. }
    pose proof (lookup_lt_Some _ _ _ Hrows2) as Hl2.
    exists rowss', (<[length rs2 - 1 := rows2 ++ [(r.1, restrict cs2 r.2)]]> rs2), moved, (length rs2 - 1, length rows2).
    split. { cbn [ar_with_chunks ar_chunks]. by rewrite insert_length, (ar_len _ _ _ _ Hr21). }
    split; [by eapply same_arch_trans; [|exact Hs2]|]. split; [done|]. split; [done|].
    split; [by eapply ar_put_chunk|]. split; [|split].
    + destruct moved as [h|]; cbn [erased] in *.
      * destruct Her as (p2 & r2 & H1 & H2 & H3 & H4). exists p2, r2.
        unfold rowss1 in H2. rewrite (at_put _ _ _ _ _ Hp), decide_False in H2 by done.
        split; [done|]. split; [done|]. split; [done|]. intros q. rewrite H4. unfold rowss1. rewrite (at_put _ _ _ _ _ Hp).
        repeat case_decide; done.
      * intros q. rewrite Her. unfold rowss1. rewrite (at_put _ _ _ _ _ Hp). repeat case_decide; done.
    + split.
      * rewrite <- (free_at _ _ _ Heq). rewrite (at_lookup _ _ _ _ Hrows2). by apply lookup_ge_None_2.
      * intros q. erewrite <- (alter_insert (λ l, l ++ [_])) by done. rewrite (at_alter_snoc _ _ _ _ _ Hrows2).
        by rewrite (free_at _ _ _ Heq).
    + assert (length rowss1 = length rowss) as El by (unfold rowss1; by rewrite alter_length). rewrite El in *.
      split; [done|]. split; [done|]. rewrite insert_length. split.
      { destruct Heq as [->| ->]; rewrite ?app_length; cbn; lia. }
      intros [Hl _]. rewrite last_lookup, insert_length in Hl. rewrite list_lookup_insert_Some in Hl.
      destruct Hl as [(_ & Hl & _)|[Hl _]]; [by destruct rows2|lia].
  - destruct (ar_swap_erase U p.1 p.2 a1) as [a2 o]. cbn [snd] in Her. subst o.
    eexists _, _, _. split; [done|]. rewrite decide_False; [done|].
    intros [?|Hn]; apply Hc; [by left|right]. intros E. apply Hn. by apply last_put in E.
Qed.

(** archetype::copy. *)
Lemma ar_copy_spec s1 s2 a cs rowss d cs2 rowss2 p r :
  ar_repr s1 a cs rowss → fulls cs rowss → ar_repr s2 d cs2 rowss2 → at_ rowss p = Some r →
  (∀ c, c ∈ cs → c ∈ cs2 → u_copyable U c = true) →
  ∃ d' rowss2' q, ar_copy U a p.1 p.2 d = (d', Ok q) ∧ same_arch d d' ∧ ar_repr s2 d' cs2 rowss2' ∧
    inserted rowss2 q (r.1, restrict cs2 r.2) rowss2' ∧ length rowss2' ≤ S (length rowss2) ∧ ¬ hole rowss2'.
Proof.
  intros Hr Hf Hr2 Hp Hcop.
  destruct (ensure_free_spec _ _ _ _ Hr2) as (d1 & rs2 & rows2 & Hrun1 & Hr21 & Hs21 & Heq & Hrows2 & Hlt2).
  unfold ar_copy, bind at 1. rewrite Hrun1. unfold bind at 1, get at 1.
  pose proof Hp as (rows & Hrows & Hi)%at_Some.
  destruct (ar_chunk _ _ _ _ _ _ Hr Hrows) as (k & Hk & Hrk).
  destruct (ar_chunk _ _ _ _ _ _ Hr21 Hrows2) as (k2 & Hk2 & Hrk2).
  rewrite Hk. unfold of_opt, bind at 1, ret at 1. 
  destruct (copy_repr U (ap_bl _ _ _ _ Hr) (ap_bl _ _ _ _ Hr21) s1 s2 k k2 rows rows2 p.2 r) as (k2' & Hcp & Hrk2').
  { done. } { done. } { done. } { by eapply Hf. } { destruct Hs21 as (-> & _). lia. } { apply HU. } { done. }
  unfold bind at 1. rewrite (on_chunk_run _ _ _ _ _ _ Hk2 Hcp). unfold ret.
  pose proof (lookup_lt_Some _ _ _ Hrows2) as Hl2.
  eexists _, (<[length rs2 - 1 := rows2 ++ [(r.1, restrict cs2 r.2)]]> rs2), (length rs2 - 1, length rows2).
  split; [by rewrite (ar_len _ _ _ _ Hr21)|]. split; [done|]. split; [by eapply ar_put_chunk|]. split; [split|split].
  - rewrite <- (free_at _ _ _ Heq). rewrite (at_lookup _ _ _ _ Hrows2). by apply lookup_ge_None_2.
  - intros q. erewrite <- (alter_insert (λ l, l ++ [_])) by done. rewrite (at_alter_snoc _ _ _ _ _ Hrows2).
    by rewrite (free_at _ _ _ Heq).
  - rewrite insert_length. destruct Heq as [->| ->]; rewrite ?app_length; cbn; lia.
  - intros [Hl _]. rewrite last_lookup, insert_length in Hl. rewrite list_lookup_insert_Some in Hl.
    destruct Hl as [(_ & Hl & _)|[Hl _]]; [by destruct rows2|lia].
Qed.

Lemma ar_copy_fail s1 s2 a cs rowss d cs2 rowss2 p r c0 :
  ar_repr s1 a cs rowss → fulls cs rowss → ar_repr s2 d cs2 rowss2 → at_ rowss p = Some r →
  c0 ∈ cs → c0 ∈ cs2 → u_copyable U c0 = false →
  ∃ d' rowss2', ar_copy U a p.1 p.2 d = (d', Throw InvalidArgument) ∧ same_arch d d' ∧ ar_repr false d' cs2 rowss2' ∧
    (∀ q, at_ rowss2' q = at_ rowss2 q) ∧ (rowss2' = rowss2 ∨ rowss2' = rowss2 ++ [[]]).
Proof.
  intros Hr Hf Hr2 Hp H01 H02 Hcop.
  destruct (ensure_free_spec _ _ _ _ Hr2) as (d1 & rs2 & rows2 & Hrun1 & Hr21 & Hs21 & Heq & Hrows2 & Hlt2).
  unfold ar_copy, bind at 1. rewrite Hrun1. unfold bind at 1, get at 1.
  pose proof Hp as (rows & Hrows & Hi)%at_Some.
  destruct (ar_chunk _ _ _ _ _ _ Hr Hrows) as (k & Hk & Hrk).
  destruct (ar_chunk _ _ _ _ _ _ Hr21 Hrows2) as (k2 & Hk2 & Hrk2).
  rewrite Hk. unfold of_opt, bind at 1, ret at 1. 
  destruct (copy_fail_repr U (ap_bl _ _ _ _ Hr) (ap_bl _ _ _ _ Hr21) s1 s2 k k2 rows rows2 p.2 r c0) as (k2' & Hcp & Hrk2').
  { done. } { done. } { done. } { by eapply Hf. } { destruct Hs21 as (-> & _). lia. } { done. } { done. } { done. }
  unfold bind at 1. rewrite (on_chunk_run _ _ _ _ _ _ Hk2 Hcp).
  pose proof (lookup_lt_Some _ _ _ Hrows2) as Hl2.
  eexists _, rs2. split; [done|]. split; [done|]. split.
  { rewrite <- (list_insert_id rs2 _ _ Hrows2) at 2. apply ar_put_chunk; [done|by eapply ar_repr_weaken|done]. }
  split; [|done]. intros q. by apply free_at.
Qed.

(** Access to one object. *)
Lemma ar_ref_spec s a cs rowss p r c : ar_repr s a cs rowss → at_ rowss p = Some r →
  ar_ref c p.1 p.2 a = if decide (c ∈ u_ent U :: cs) then (a, Ok (ad (ar_blocks a) c p.2)) else (a, Throw ComponentNotFound).
Proof.
  intros Hr (rows & Hrows & Hi)%at_Some. destruct (ar_chunk _ _ _ _ _ _ Hr Hrows) as (k & Hk & Hrk).
  unfold ar_ref, bind at 1, get at 1. unfold bind at 1. rewrite (on_chunk_get _ _ _ Hk).
  pose proof (lookup_lt_Some _ _ _ Hi). rewrite (cr_size _ _ _ _ _ _ _ Hrk).
  destruct (decide (length rows ≤ p.2)); [lia|].
  destruct (decide (c ∈ u_ent U :: cs)).
  - eapply fetch_ok; [apply Hr|done].
  - eapply fetch_none; [apply Hr|done].
Qed.

Lemma ar_read_spec s a cs rowss p r c v : ar_repr s a cs rowss → at_ rowss p = Some r → c ∈ cs → r.2 !! c = Some v →
  on_chunk p.1 (read_obj (ad (ar_blocks a) c p.2)) a = (a, Ok (CVal v)).
Proof.
  intros Hr (rows & Hrows & Hi)%at_Some Hc Hv. destruct (ar_chunk _ _ _ _ _ _ Hr Hrows) as (k & Hk & Hrk).
  unfold on_chunk. rewrite Hk. unfold read_obj. erewrite read_repr by (done || apply Hr).
  unfold ar_with_chunks. rewrite list_insert_id by done. by destruct a.
Qed.

Lemma ar_assign_spec s a cs rowss p r c v : ar_repr s a cs rowss → at_ rowss p = Some r → c ∈ cs → is_Some (r.2 !! c) →
  ∃ a', on_chunk p.1 (assign_obj (ad (ar_blocks a) c p.2) (CVal v)) a = (a', Ok tt) ∧ same_arch a a' ∧
    ar_repr s a' cs (alter (<[p.2 := (r.1, <[c := v]> r.2)]>) p.1 rowss).
Proof.
  intros Hr Hp Hc Hv. pose proof Hp as (rows & Hrows & Hi)%at_Some.
  destruct (ar_chunk _ _ _ _ _ _ Hr Hrows) as (k & Hk & Hrk).
  destruct (assign_repr U (ap_bl _ _ _ _ Hr) s k rows p.2 r c v Hrk Hi Hc Hv) as (k' & Hrun & Hrk').
  eexists. split; [by eapply on_chunk_run|]. split; [done|]. by eapply ar_put_row.
Qed.

Lemma ar_construct_spec s a cs rowss p r c v : ar_repr s a cs rowss → at_ rowss p = Some r → c ∈ cs → r.2 !! c = None →
  ∃ a', on_chunk p.1 (construct_at (ad (ar_blocks a) c p.2) (CVal v)) a = (a', Ok tt) ∧ same_arch a a' ∧
    ar_repr s a' cs (alter (<[p.2 := (r.1, <[c := v]> r.2)]>) p.1 rowss).
Proof.
  intros Hr Hp Hc Hv. pose proof Hp as (rows & Hrows & Hi)%at_Some.
  destruct (ar_chunk _ _ _ _ _ _ Hr Hrows) as (k & Hk & Hrk).
  destruct (construct_repr U (ap_bl _ _ _ _ Hr) s k rows p.2 r c v Hrk Hi Hc Hv) as (k' & Hrun & Hrk').
  eexists. split; [by eapply on_chunk_run|]. split; [done|]. by eapply ar_put_row.
Qed.

Lemma ar_put_entity_aux s a cs rowss p r h : ar_repr s a cs rowss → at_ rowss p = Some r → 
  ∃ a', on_chunk p.1 (assign_obj (ad (ar_blocks a) (u_ent U) p.2) (CEnt h)) a = (a', Ok tt) ∧ same_arch a a' ∧
    ar_repr s a' cs (alter (<[p.2 := (h, r.2)]>) p.1 rowss).
Proof.
  intros Hr Hp. pose proof Hp as (rows & Hrows & Hi)%at_Some.
  destruct (ar_chunk _ _ _ _ _ _ Hr Hrows) as (k & Hk & Hrk).
  pose proof (ap_bl _ _ _ _ Hr) as Hbl.
  assert (ck_mem k !! ad (ar_blocks a) (u_ent U) p.2 = Some (CEnt r.1)) as Hcell.
  { eapply (cr_mem _ _ _ _ _ _ _ Hrk); [done|by left|]. unfold rcell. by rewrite decide_True. }
  pose proof (lookup_lt_Some _ _ _ Hi). pose proof (cr_le _ _ _ _ _ _ _ Hrk).
  eexists. split; [eapply on_chunk_run; [done|]; unfold assign_obj; by rewrite Hcell|]. split; [done|].
  eapply ar_put_row; try done.
  assert (∀ c', c' ∈ u_ent U :: cs → c' ≠ u_ent U → ad (ar_blocks a) (u_ent U) p.2 ≠ ad (ar_blocks a) c' p.2) as Hne.
  { intros c' Hc' Hne E. apply (ad_inj U Hbl) in E as [E _]; try done; try lia. by left. }
  eapply (update_repr U Hbl); try done; cbn [ck_mem].
  - cbn [snd]. by eapply (cr_dom _ _ _ _ _ _ _ Hrk).
  - intros c' x Hc'. unfold rcell. cbn [fst snd]. case_decide as E.
    + intros [= <-]. subst c'. apply lookup_insert.
    + intros Hx. rewrite lookup_insert_ne by (by apply Hne). eapply (cr_mem _ _ _ _ _ _ _ Hrk); [done|done|].
      unfold rcell. by rewrite decide_False.
  - intros -> c' Hc'. unfold rcell. cbn [fst snd]. case_decide as E; [done|]. intros Hx.
    rewrite lookup_insert_ne by (by apply Hne). eapply (cell_raw U Hbl); [done|done|done|]. unfold rcell. by rewrite decide_False.
  - intros o Ho. apply lookup_insert_ne. intros <-. apply Ho. apply row_addrs_in. by left.
Qed.

Lemma ar_put_entity_spec s a cs rowss p r h : ar_repr s a cs rowss → at_ rowss p = Some r → 
  ∃ a', ar_put_entity U p.1 p.2 h a = (a', Ok tt) ∧ same_arch a a' ∧
    ar_repr s a' cs (alter (<[p.2 := (h, r.2)]>) p.1 rowss).
Proof.
  intros Hr Hp. destruct (ar_put_entity_aux s a cs rowss p r h Hr Hp) as (a' & Hrun & H). exists a'. split; [|done].
  unfold ar_put_entity, bind at 1, get at 1. unfold bind at 1.
  destruct (blk_at_ok U (ap_bl _ _ _ _ Hr) (u_ent U) a) as (eb & -> & _ & Hea); [by left|]. by rewrite Hea.
Qed.

Lemma ar_visit_spec s a cs rowss p r : ar_repr s a cs rowss → at_ rowss p = Some r → full cs r →
  ar_visit a p.1 p.2 = Ok (visit_row cs r).
Proof.
  intros Hr (rows & Hrows & Hi)%at_Some Hf. destruct (ar_chunk _ _ _ _ _ _ Hr Hrows) as (k & Hk & Hrk).
  unfold ar_visit. rewrite Hk. eapply visit_repr; [apply Hr|done|done|done].
Qed.

Lemma ar_contains_spec s a cs rowss c : ar_repr s a cs rowss → ar_contains a c = bool_decide (c ∈ cs).
Proof. intros Hr. unfold ar_contains. rewrite ms_contains_spec by apply Hr. by rewrite (ap_cs _ _ _ _ Hr). Qed.

(** The destructor. *)
Lemma ar_destruct_spec s a cs rowss : ar_repr s a cs rowss → fulls cs rowss →
  ∃ n, ar_destruct a = Ok n ∧ (s = true → n = 0).
Proof.
  intros Hr Hf. unfold ar_destruct.
  assert (∃ n, ks_destruct (ar_blocks a) (ar_chunks a) = Ok n ∧ (s = true → n = 0)) as (n & -> & Hn).
  { pose proof (ap_bl _ _ _ _ Hr) as Hbl. pose proof (ap_ks _ _ _ _ Hr) as Hks.
    assert (∀ rows, rows ∈ rowss → ∀ r, r ∈ rows → full cs r) as Hf'.
    { intros rows [c Hc]%elem_of_list_lookup. by eapply fulls_rows. }
    revert Hf'. clear -Hbl Hks. induction Hks as [|k rows ks rowss Hk Hks IH]; intros Hf; [by exists 0|]. cbn [ks_destruct].
    destruct (destruct_repr U Hbl s k rows Hk) as (k' & -> & Hl); [apply Hf; by left|].
    destruct IH as (n & -> & Hn). { intros; eapply Hf; [|done]; by right. }
    eexists. split; [done|]. intros Es. rewrite Hl, Hn; done. }
  eexists. split; [done|]. intros Es. rewrite Hn, (ap_lost _ _ _ _ Hr); done.
Qed.
End proofs.
