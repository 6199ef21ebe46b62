(** C80: ranges that are kept. *)
From Verif Require Import Base Bits Layout PropLayout HandlePool HandleSpec HandlePoolProofs SparseMap SparseMapProofs
  HashTable HashTableProofs HashTableMap Bitset BitsetProofs ComponentSet ComponentSetProofs
  Chunk ChunkProofs Archetype ArchetypeProofs Registry RegistryStore RegistryProofs View ViewProofs RegSpec RegSpecProofs RegObs RegRun
  Placeholder PropRegistry KeptRange KeptRangeProofs.

Section props.
Context (U : universe).
Hypothesis HU : u_wf U.

Lemma arch_same p r ar r1 : rg_arch p r = (r1, Ok ar) → r1 = r.
Proof.
  unfold rg_arch, on_arch. destruct p as [a|]; [|done]. destruct (rg_heap r !! a) as [x|] eqn:E; [|done]. unfold get. intros [= <- <-].
  rewrite list_insert_id by done. by destruct r.
Qed.
Lemma arch_cases p r : (∃ ar, rg_arch p r = (r, Ok ar)) ∨ (rg_arch p r = (r, UB)).
Proof.
  unfold rg_arch, on_arch. destruct p as [a|]; [|by right]. destruct (rg_heap r !! a) as [x|] eqn:E; [|by right]. left. exists x. unfold get.
  rewrite list_insert_id by done. by destruct r.
Qed.

Lemma find_spec' rq f r sl : ∀ i,
  (∃ j e l ar, rn_find U rq i sl r = (r, Ok (i + j)) ∧ drop j sl = Some e :: l ∧ rg_arch (he_val e) r = (r, Ok ar) ∧ forallb (vw_match U ar) (vr_cid <$> rq) = true ∧
     vw_archs U rq f ((λ e, (he_key e, he_val e)) <$> omap id sl) [] r = vw_archs U rq f ((λ e, (he_key e, he_val e)) <$> omap id (drop j sl)) [] r) ∨
  (rn_find U rq i sl r = (r, Ok (i + length sl)) ∧ vw_archs U rq f ((λ e, (he_key e, he_val e)) <$> omap id sl) [] r = (r, Ok [])) ∨
  (rn_find U rq i sl r = (r, UB) ∧ vw_archs U rq f ((λ e, (he_key e, he_val e)) <$> omap id sl) [] r = (r, UB)).
Proof.
  induction sl as [|[e|] sl IH]; intros i; cbn [rn_find].
  - right. left. by rewrite Nat.add_0_r.
  - change (omap id (Some e :: sl)) with (e :: omap id sl). rewrite fmap_cons. cbn [vw_archs snd]. destruct (arch_cases (he_val e) r) as [[ar E]|E].
    2:{ right. right. unfold bind. by rewrite E. }
    rewrite !(bind_ok _ _ _ _ _ E). destruct (forallb (vw_match U ar) (vr_cid <$> rq)) eqn:Em.
    + left. exists 0, e, sl, ar. rewrite Nat.add_0_r. split_and!; try done. cbn [drop]. change (omap id (Some e :: sl)) with (e :: omap id sl). rewrite fmap_cons.
      cbn [vw_archs snd]. rewrite (bind_ok _ _ _ _ _ E). by rewrite Em.
    + rewrite (bind_ok (ret []) _ r r []) by done. destruct (IH (S i)) as [(j & e' & l & ar' & Ef & Ed & Ea & Em' & Ev)|[[Ef Ev]|[Ef Ev]]].
      * left. exists (S j), e', l, ar'. rewrite Ef. split_and!; try done. f_equal. f_equal. lia.
      * right. left. rewrite Ef, Ev. split; [|done]. f_equal. f_equal. cbn [length]. lia.
      * right. right. done.
  - change (omap id (None :: sl)) with (omap (id : option (hent bitset (option nat)) → _) sl). destruct (IH (S i)) as [(j & e' & l & ar' & Ef & Ed & Ea & Em' & Ev)|[[Ef Ev]|[Ef Ev]]].
    + left. exists (S j), e', l, ar'. rewrite Ef. split_and!; try done. f_equal. f_equal. lia.
    + right. left. rewrite Ef, Ev. split; [|done]. f_equal. f_equal. cbn [length]. lia.
    + right. right. done.
Qed.

Lemma from_spec rq f r sl i e l ar : ht_slots (rg_table r) = sl → drop i sl = Some e :: l → rg_arch (he_val e) r = (r, Ok ar) → forallb (vw_match U ar) (vr_cid <$> rq) = true →
  rn_from U rq f i r = vw_archs U rq f ((λ e, (he_key e, he_val e)) <$> omap id (drop i sl)) [] r.
Proof.
  intros Hsl Ed Ea Em. transitivity (match drop i (ht_slots (rg_table r)) with
    | [] => ret [] | None :: _ => ub
    | Some e :: sl => let! ar := rg_arch (he_val e) in let! log := vw_chunks U (he_val e) (ar_blocks ar) rq f (seq 0 (length (ar_chunks ar))) [] in
        vw_archs U rq f ((λ e, (he_key e, he_val e)) <$> omap id sl) log end r); [done|].
  rewrite Hsl, Ed. change (omap id (Some e :: l)) with (e :: omap id l). rewrite fmap_cons. cbn [vw_archs snd]. rewrite !(bind_ok _ _ _ _ _ Ea). by rewrite Em.
Qed.
Lemma begin_spec rq f r k i : rn_begin U rq k r = (r, Ok i) →
  rn_each U rq f k r = (let '(r', o) := rn_from U rq f i r in (r', omap_out (λ log, (log, Some (length (ht_slots (rg_table r)), i))) o)).
Proof.
  intros E. transitivity (bind (rn_begin U rq k) (λ i, bind (rn_from U rq f i) (λ log, ret (log, Some (length (ht_slots (rg_table r)), i)))) r); [done|].
  rewrite (bind_ok _ _ _ _ _ E). unfold bind. by destruct (rn_from U rq f i r) as [r' []].
Qed.
Lemma each_unfold rq f r : rg_each U rq f r = vw_archs U rq f (ht_iter (rg_table r)) [] r.
Proof. done. Qed.

(** What the first loop leaves in the range. *)
Lemma first_spec rq f r :
  (∃ i, rn_begin U rq None r = (r, Ok i) ∧ rn_from U rq f i r = rg_each U rq f r) ∨ (rn_begin U rq None r = (r, UB) ∧ rn_each U rq f None r = (r, UB) ∧ rg_each U rq f r = (r, UB)).
Proof.
  rewrite each_unfold. unfold ht_iter, ht_entries.
  assert (rn_begin U rq None r = rn_find U rq 0 (ht_slots (rg_table r)) r) as Eb by done.
  destruct (find_spec' rq f r (ht_slots (rg_table r)) 0) as [(j & e & l & ar & Ef & Ed & Ea & Em & Ev)|[[Ef Ev]|[Ef Ev]]].
  - left. exists j. rewrite Eb, Ef, Ev. split; [done|]. by eapply from_spec.
  - left. exists (length (ht_slots (rg_table r))). rewrite Eb, Ef, Ev. split; [done|]. unfold rn_from, bind, get. by rewrite drop_all.
  - right. split; [by rewrite Eb|]. split; [|done]. transitivity (bind (rn_begin U rq None) (λ i, bind (rn_from U rq f i) (λ log, ret (log, Some (length (ht_slots (rg_table r)), i)))) r); [done|].
    unfold bind. by rewrite Eb, Ef.
Qed.

(** The first loop over a range is each(func), in every registry. *)
Theorem C80_first r rq f : (rn_each U rq f None r).1 = (rg_each U rq f r).1 ∧ omap_out fst (rn_each U rq f None r).2 = (rg_each U rq f r).2.
Proof.
  destruct (first_spec rq f r) as [(i & Eb & Ef)|(_ & -> & ->)]; [|done]. rewrite (begin_spec _ _ _ _ _ Eb), Ef. destruct (rg_each U rq f r) as [r' []]; done.
Qed.

Lemma reach_len n rs ss : reach U n rs ss → length rs = length ss.
Proof. induction 1; [by rewrite !replicate_length|by eapply Forall2_length]. Qed.
(** Which bucket begin() finds, from the keys of the table alone. *)
Definition kmatch (rq : list vreq) (key : bitset) : bool := forallb (λ c, bool_decide (c = u_ent U) || bs_test key c) (vr_cid <$> rq).
Fixpoint kfind (rq : list vreq) (i : nat) (sl : list (option (hent bitset (option nat)))) : nat :=
  match sl with
  | [] => i
  | None :: sl => kfind rq (S i) sl
  | Some e :: sl => if kmatch rq (he_key e) then i else kfind rq (S i) sl
  end.
Lemma table_in s r hp e : st_inv U s r hp → nonull r → Some e ∈ ht_slots (rg_table r) → ∃ ar, rg_arch (he_val e) r = (r, Ok ar) ∧ ms_ids (ar_comps ar) = he_key e.
Proof.
  intros Hst Hnn Hin. assert ((he_key e, he_val e) ∈ ht_iter (rg_table r)) as Hi.
  { unfold ht_iter, ht_entries. apply elem_of_list_fmap. exists e. split; [done|]. apply elem_of_list_omap. by exists (Some e). }
  rewrite (iter_perm bs_hash _ (si_twf _ _ _ _ Hst)) in Hi. apply elem_of_map_to_list in Hi. destruct (he_val e) as [a|] eqn:Ev; [|by destruct (Hnn _ Hi)].
  destruct (si_t1 _ _ _ _ Hst _ _ Hi) as (ar & Har & Ek). exists ar. split; [by apply rg_arch_run|done].
Qed.
Lemma kfind_spec s r hp rq sl : st_inv U s r hp → nonull r → (∀ e, Some e ∈ sl → Some e ∈ ht_slots (rg_table r)) → ∀ i, rn_find U rq i sl r = (r, Ok (kfind rq i sl)).
Proof.
  intros Hst Hnn. induction sl as [|[e|] sl IH]; intros Hsub i; cbn [rn_find kfind]; [done| |apply IH; set_solver].
  destruct (table_in _ _ _ e Hst Hnn ltac:(set_solver)) as (ar & Ea & Ek). rewrite (bind_ok _ _ _ _ _ Ea).
  assert (forallb (vw_match U ar) (vr_cid <$> rq) = kmatch rq (he_key e)) as -> by (by rewrite <- Ek).
  destruct (kmatch rq (he_key e)); [done|]. apply IH. set_solver.
Qed.
Lemma begin_none s r hp rq : st_inv U s r hp → nonull r → rn_begin U rq None r = (r, Ok (kfind rq 0 (ht_slots (rg_table r)))).
Proof. intros Hst Hnn. change (rn_find U rq 0 (ht_slots (rg_table r)) r = (r, Ok (kfind rq 0 (ht_slots (rg_table r))))). by eapply kfind_spec. Qed.
Lemma begin_kept rq n i r : n = length (ht_slots (rg_table r)) → rn_begin U rq (Some (n, i)) r = (r, Ok i).
Proof. intros ->. unfold rn_begin. rewrite (bind_ok _ _ r r r) by done. by rewrite decide_True. Qed.
Lemma each_inv rq f r r1 log k : rn_each U rq f None r = (r1, Ok (log, k)) → ∃ i, rn_begin U rq None r = (r, Ok i) ∧ k = Some (length (ht_slots (rg_table r)), i).
Proof.
  intros E. destruct (first_spec rq f r) as [(i & Eb & Ef)|(_ & E' & _)]; [|congruence]. exists i. split; [done|]. rewrite (begin_spec _ _ _ _ _ Eb) in E.
  destruct (rn_from U rq f i r) as [r2 []]; cbn in E; by simplify_eq.
Qed.

(** A later loop is each(func) again as long as there is no new archetype, whatever other calls are made in between. *)
Theorem C80_same n rs ss (j : nat) r s rq f r1 log k o l rs' ss' r' f' : reach U n rs ss → below_wrap (2 * (n + S (length l))) → rs !! j = Some r → ss !! j = Some s → sr_failed s = false →
  rn_each U rq f None r = (r1, Ok (log, k)) → steps U rs ss ((At j (OEach rq f), o) :: l) rs' ss' → rs' !! j = Some r' → ht_size (rg_table r') = ht_size (rg_table r) →
  rn_each U rq f' k r' = (let '(r2, o2) := rg_each U rq f' r' in (r2, omap_out (λ log2, (log2, k)) o2)).
Proof.
  intros Hr Hbw Hj Hs Hf E Hst Hj' Hsz. pose proof (steps_reach U _ _ _ _ _ _ Hr Hst) as Hr'. cbn [length] in Hr'.
  destruct (each_inv _ _ _ _ _ _ E) as (i & Eb & ->).
  assert (Forall2 tmono1 rs rs') as Hm by (by eapply steps_tmono). destruct (Forall2_lookup_l _ _ _ _ _ Hm Hj) as (r2 & Hj2 & Hm2). rewrite Hj' in Hj2. injection Hj2 as <-.
  destruct (reached_ri U HU n r s) as (iss & hp & [_ H Hn]); [by exists rs, ss, j|unfold below_wrap in *; lia|]. specialize (Hn Hf).
  destruct (Hm2 (si_twf _ _ _ _ (rv_st _ _ _ _ _ _ _ _ _ H))) as [_ [_ D]]. assert (rg_table r' = rg_table r) as Et.
  { destruct D as [?|[?|[key Hk]]]; [lia|done|by destruct (Hn key)]. }
  assert (∃ s', ss' !! j = Some s') as [s' Hs']. { apply lookup_lt_is_Some_2. rewrite <- (reach_len _ _ _ Hr'). by eapply lookup_lt_Some. }
  destruct (reached_ri U HU (n + S (length l)) r' s') as (iss' & hp' & [_ H' _]); [by exists rs', ss', j|done|].
  assert (nonull r') as Hn' by (unfold nonull; by rewrite Et).
  rewrite (begin_none _ _ _ _ (rv_st _ _ _ _ _ _ _ _ _ H) Hn) in Eb. injection Eb as <-. rewrite <- Et.
  destruct (first_spec rq f' r') as [(i & Eb & Ef)|(Eb & _)]; rewrite (begin_none _ _ _ _ (rv_st _ _ _ _ _ _ _ _ _ H') Hn') in Eb; [|done].
  injection Eb as Ei. rewrite (begin_spec _ _ _ _ i); [by rewrite Ef, Ei|]. rewrite Ei. by apply begin_kept.
Qed.

(** An archetype without a requested component: the first chunk is enough to notice. *)
Lemma new_missing sl ar cs rowss rq i (k : chunk) : ar_repr U sl ar cs rowss → forallb (vw_match U ar) (vr_cid <$> rq) = false → it_new (ar_blocks ar) rq i k = (k, Throw ComponentNotFound).
Proof.
  intros Hrep. induction rq as [|q rq IH]; [done|]. rewrite fmap_cons. cbn [forallb it_new]. pose proof (ap_bl _ _ _ _ _ Hrep) as Hbl.
  unfold fetch_pointer, vw_match. rewrite (ar_contains_spec U _ _ _ _ (vr_cid q) Hrep). rewrite (sm_at_spec w32) by apply Hbl.
  destruct (decide (vr_cid q ∈ u_ent U :: cs)) as [Hin|Hin].
  - destruct (bl_lookup U Hbl _ Hin) as [b ->]. intros Hm. rewrite (bind_ok _ _ k k (addr b i)) by done.
    rewrite (bind_throw _ _ k k ComponentNotFound); [done|]. apply IH. apply andb_false_iff in Hm as [Hm|Hm]; [|done]. exfalso.
    apply orb_false_iff in Hm as [H1 H2]. apply bool_decide_eq_false in H1, H2. set_solver.
  - intros _. rewrite (bl_lookup_None U Hbl _ Hin). done.
Qed.

(** What any kept range visits: the last part of what each(func) visits, each entity with its components then; or the loop
    throws component_not_found, or its behaviour is undefined. *)
Theorem C80_part n r s rq f nb i : reached U n r s → below_wrap (2 * n) → sr_failed s = false → rq ≠ [] → VReq (u_ent U) true ∉ rq →
  (∃ r1 r2 pre log, rg_each U rq f r = (r1, Ok (pre ++ log)) ∧ rn_each U rq f (Some (nb, i)) r = (r2, Ok (log, Some (nb, i)))) ∨
  rn_each U rq f (Some (nb, i)) r = (r, Throw ComponentNotFound) ∨ rn_each U rq f (Some (nb, i)) r = (r, UB).
Proof.
  intros Hr Hbw Hf Hne Hent. destruct (reached_ri U HU _ _ _ Hr Hbw) as (iss & hp & [_ H Hn]). specialize (Hn Hf). pose proof (rv_st _ _ _ _ _ _ _ _ _ H) as Hst.
  destruct (decide (nb = length (ht_slots (rg_table r)))) as [->|Hb].
  2:{ do 2 right. unfold rn_each, rn_begin, bind, get. by rewrite decide_False. }
  rewrite (begin_spec _ _ _ _ i (begin_kept _ _ _ _ eq_refl)). destruct (entries_ok U _ _ _ Hst) as [Hnd Hall].
  assert (Forall (λ e : bitset * option nat, e.2 ≠ None) (ht_iter (rg_table r))) as Hnn.
  { apply Forall_forall. intros e He En. apply (Hn e.1). apply elem_of_map_to_list. rewrite <- (iter_perm bs_hash _ (si_twf _ _ _ _ Hst)), <- En. by destruct e. }
  rewrite Forall_forall in Hnn. rewrite filter_all in Hnd by done.
  assert (ht_iter (rg_table r) = ((λ e, (he_key e, he_val e)) <$> omap id (take i (ht_slots (rg_table r)))) ++ ((λ e, (he_key e, he_val e)) <$> omap id (drop i (ht_slots (rg_table r))))) as Esp.
  { rewrite <- fmap_app, <- omap_app, take_drop. done. }
  set (l1 := (λ e, (he_key e, he_val e)) <$> omap id (take i (ht_slots (rg_table r)))) in *.
  set (l2 := (λ e, (he_key e, he_val e)) <$> omap id (drop i (ht_slots (rg_table r)))) in *.
  destruct (archs_ok U HU rq Hent Hne _ _ f _ _ _ (ht_iter (rg_table r)) [] r hp _ H Hnd) as (r1 & hp1 & E1 & _); [intros e He; by apply Hall, Hnn|].
  destruct (archs_ok U HU rq Hent Hne _ _ f _ _ _ l2 [] r hp _ H) as (r2 & hp2 & E2 & _).
  { rewrite Esp, fmap_app in Hnd. by apply NoDup_app in Hnd as (_ & _ & ?). }
  { intros e He. apply Hall, Hnn; rewrite Esp; set_solver. }
  assert (∃ pre, rg_each U rq f r = (r1, Ok (pre ++ (row_vals U rq <$> (l2 ≫= arows U rq hp))))) as [pre Epre].
  { rewrite each_unfold, E1. exists (row_vals U rq <$> (l1 ≫= arows U rq hp)). by rewrite Esp, bind_app, fmap_app. }
  destruct (drop i (ht_slots (rg_table r))) as [|[e|] l] eqn:Ed.
  - left. exists r1, r, pre, []. split; [done|]. unfold rn_from, bind, get. by rewrite Ed.
  - destruct (table_in _ _ _ e Hst Hn) as (ar & Ea & Ek). { apply elem_of_list_lookup. exists (i + 0). rewrite <- lookup_drop, Ed. done. }
    destruct (forallb (vw_match U ar) (vr_cid <$> rq)) eqn:Em.
    + left. exists r1, r2, pre, (row_vals U rq <$> (l2 ≫= arows U rq hp)). split; [done|]. rewrite (from_spec rq f r _ i e l ar eq_refl Ed Ea Em). rewrite Ed. fold l2. by rewrite E2.
    + right. left. destruct (Hall (he_key e, he_val e)) as (a & Ev & [[cs rowss] Ha]); [|apply Hnn|].
      1,2: rewrite Esp; apply elem_of_app; right; unfold l2; change (omap id (Some e :: l)) with (e :: omap id l); rewrite fmap_cons; by left.
      cbn [snd] in Ev. destruct (st_arch U _ _ _ _ _ Hst Ha) as (ar' & Har & Hrep). cbn [fst snd] in Hrep. rewrite Ev in Ea.
      rewrite (rg_arch_run _ _ _ Har) in Ea. injection Ea as ->.
      assert (∃ k ks, ar_chunks ar = k :: ks) as (ck & cks & Eck).
      { pose proof (ap_ne _ _ _ _ _ Hrep) as Hx. pose proof (ap_ks _ _ _ _ _ Hrep) as Hy. destruct (ar_chunks ar); [|by eauto]. inversion Hy. by subst. }
      assert (rn_from U rq f i r = (r, Throw ComponentNotFound)) as ->; [|done].
      unfold rn_from. rewrite (bind_ok _ _ r r r) by done. rewrite Ed, Ev. rewrite (bind_ok _ _ _ _ _ (rg_arch_run _ _ _ Har)).
      apply bind_throw. rewrite Eck. cbn [length seq vw_chunks]. apply bind_throw. unfold on_arch. rewrite Har. unfold on_chunk. rewrite Eck. cbn [lookup list_lookup].
      assert (vw_chunk U (ar_blocks ar) rq f [] ck = (ck, Throw ComponentNotFound)) as ->.
      { unfold vw_chunk. rewrite (bind_ok _ _ ck ck ck) by done. apply bind_throw. by eapply new_missing. }
      cbn [insert list_insert]. rewrite <- Eck. unfold ar_with_chunks, rg_set_heap. f_equal. destruct ar as [? ? ? ? ?]. cbn in *. rewrite list_insert_id by done. by destruct r.
  - do 2 right. unfold rn_from, bind, get. by rewrite Ed.
Qed.

(** When the table was replaced by a larger one, the kept iterator points into freed memory: in every registry. *)
Theorem C80_grown_refuted r rq f nb i : nb ≠ length (ht_slots (rg_table r)) → rn_each U rq f (Some (nb, i)) r = (r, UB).
Proof. intros Hb. unfold rn_each, rn_begin, bind, get. by rewrite decide_False. Qed.

(** A range that was looped over when no archetype matched visits nothing ever after. *)
Theorem C80_none_refuted r rq f r1 k r' f' : (∀ e ar, e ∈ ht_iter (rg_table r) → rg_arch e.2 r = (r, Ok ar) → forallb (vw_match U ar) (vr_cid <$> rq) = false) →
  rn_each U rq f None r = (r1, Ok ([], k)) → rn_each U rq f' k r' = (r', Ok ([], k)) ∨ rn_each U rq f' k r' = (r', UB).
Proof.
  intros Hno E. destruct (each_inv _ _ _ _ _ _ E) as (i & Eb & ->).
  assert (i = length (ht_slots (rg_table r))) as ->.
  { change (rn_find U rq 0 (ht_slots (rg_table r)) r = (r, Ok i)) in Eb.
    destruct (find_spec' rq f r (ht_slots (rg_table r)) 0) as [(j & e & l & ar & Ef & Ed & Ea & Em & _)|[[Ef _]|[Ef _]]]; rewrite Eb in Ef; [|by injection Ef|done]. exfalso.
    rewrite (Hno (he_key e, he_val e) ar) in Em; [done| |done]. unfold ht_iter, ht_entries. apply elem_of_list_fmap. exists e. split; [done|].
    apply elem_of_list_omap. exists (Some e). split; [|done]. apply elem_of_list_lookup. exists (j + 0). by rewrite <- lookup_drop, Ed. }
  destruct (decide (length (ht_slots (rg_table r)) = length (ht_slots (rg_table r')))) as [Eq|Hne].
  - left. rewrite Eq, (begin_spec _ _ _ _ _ (begin_kept _ _ _ _ eq_refl)). unfold rn_from, bind, get. by rewrite drop_all.
  - right. by apply C80_grown_refuted.
Qed.
End props.

(** * Examples *)
(** Calls, a loop over a range, more calls, and then: the second loop over the range, and each(func). *)
Definition reads (cs : list cid) : list vreq := (λ c, VReq c false) <$> cs.
Definition no_writes : callback := λ _ _ _, None.
Definition two_loops (ops ops' : list rop) (rq : list vreq) : outcome vlog * outcome vlog * outcome vlog :=
  let r := default rg_init (head (calls U0 (At 0 <$> ops) [rg_init]).1) in
  let '(r1, o1) := rn_each U0 rq no_writes None r in
  let r' := default rg_init (head (calls U0 (At 0 <$> ops') [r1]).1) in
  (omap_out fst o1, match o1 with Ok (_, k) => omap_out fst (rn_each U0 rq no_writes k r').2 | _ => UB end, (rg_each U0 rq no_writes r').2).

(** Nothing matched at the first loop. *)
Theorem C80_empty_refuted : two_loops [] [OCreate [(1%N, Val 10)]] (reads [1%N]) = (Ok [], Ok [], Ok [[CVal (Val 10)]]).
Proof. by vm_compute. Qed.
(** The new archetype comes before the kept bucket: its entities are missed. *)
Theorem C80_missed_refuted : two_loops [OCreate [(1%N, Val 10); (4%N, Val 40)]] [OCreate [(4%N, Val 41)]] (reads [4%N]) =
  (Ok [[CVal (Val 40)]], Ok [[CVal (Val 40)]], Ok [[CVal (Val 41)]; [CVal (Val 40)]]).
Proof. by vm_compute. Qed.
(** New archetypes pushed the matching one to a later bucket: the loop goes over one that does not match. *)
Theorem C80_wrong_refuted : two_loops [OCreate [(2%N, Val 20)]] [OCreate [(1%N, Val 10)]; OCreate [(1%N, Val 11); (4%N, Val 40)]; OCreate [(1%N, Val 12); (5%N, Val 50)]] (reads [2%N]) =
  (Ok [[CVal (Val 20)]], Throw ComponentNotFound, Ok [[CVal (Val 20)]]).
Proof. by vm_compute. Qed.
(** Fourteen more archetypes: the table was replaced. *)
Definition fourteen : list rop := (λ cs, OCreate ((λ c, (c, Val 1)) <$> cs)) <$>
  [[1; 2]; [3]; [1; 3]; [2; 3]; [1; 2; 3]; [4]; [1; 4]; [2; 4]; [1; 2; 4]; [3; 4]; [1; 3; 4]; [2; 3; 4]; [1; 2; 3; 4]; [2]]%N.
Theorem C80_freed_refuted : (two_loops [OCreate [(1%N, Val 10)]] fourteen (reads [1%N])).1 = (Ok [[CVal (Val 10)]], UB).
Proof. by vm_compute. Qed.

(** A run whose later calls add no archetype: the kept range gives the same as each. *)
Example ex_C80_same : two_loops [OCreate [(1%N, Val 10); (2%N, Val 20)]; OCreate [(1%N, Val 11)]; OCreate [(1%N, Val 12); (2%N, Val 22)]]
    [OSet e0 1%N (CtorOk (Val 13)); ODestroy e2; OCreate [(1%N, Val 14)]] (reads [0%N; 1%N]) =
  (Ok [[CEnt e1; CVal (Val 11)]; [CEnt e0; CVal (Val 10)]; [CEnt e2; CVal (Val 12)]],
   Ok [[CEnt e1; CVal (Val 11)]; [CEnt (Handle 2 1); CVal (Val 14)]; [CEnt e0; CVal (Val 13)]],
   Ok [[CEnt e1; CVal (Val 11)]; [CEnt (Handle 2 1); CVal (Val 14)]; [CEnt e0; CVal (Val 13)]]).
Proof. by vm_compute. Qed.
Example ex_C80_first := C80_first U0 r0 (reads [1%N]) no_writes.
Example ex_C80_same_use r1 log k o l rs' ss' r' f' Hw := C80_same U0 U0_wf 6 rs0 ss0 0 r0 s0 (reads [1%N]) no_writes r1 log k o l rs' ss' r' f' ex_reach Hw ex_r0 ex_s0 (ltac:(by vm_compute)).
Example ex_C80_part := C80_part U0 U0_wf 6 r0 s0 (reads [1%N]) no_writes 16 14 ex_reached (ltac:(by vm_compute)) (ltac:(by vm_compute)).
Example ex_C80_part_run : (length <$> match (rn_each U0 (reads [1%N]) no_writes (Some (16, 14)) r0).2 with Ok x => Some x.1 | _ => None end,
  length <$> match (rg_each U0 (reads [1%N]) no_writes r0).2 with Ok x => Some x | _ => None end) = (Some 1, Some 2).
Proof. by vm_compute. Qed.
Print Assumptions C80_first.
Print Assumptions C80_same.
Print Assumptions C80_part.
Print Assumptions C80_grown_refuted.
Print Assumptions C80_none_refuted.
Print Assumptions C80_empty_refuted.
Print Assumptions C80_missed_refuted.
Print Assumptions C80_wrong_refuted.
Print Assumptions C80_freed_refuted.
