(** C51: when removing a component needs no space. *)
From Verif Require Import Base Bits Layout PropLayout HandlePool HandleSpec HandlePoolProofs SparseMap SparseMapProofs
  HashTable HashTableProofs HashTableMap Bitset BitsetProofs ComponentSet ComponentSetProofs
  Chunk ChunkProofs Archetype ArchetypeProofs Registry RegistryStore RegistryProofs View ViewProofs RegSpec RegSpecProofs
  RegObs RegRun RemoveProofs.
Ltac Zify.zify_post_hook ::= Z.div_mod_to_equations.
Local Open Scope nat_scope.

Section remove.
Context (U : universe) (HU : u_wf U).

(** [cs] lists the components of an entity. *)
Definition listed (cs : list cid) (m : gmap cid val) : Prop := NoDup cs ∧ ∀ c, c ∈ cs ↔ is_Some (m !! c).

(** The only exception is insufficient_chunk_size, and it means that the components fit into a chunk in some order, but not
    without the one to be removed.  Missing: C51 as stated is false. *)
Theorem C51_exact_partial n r s h m c e : reached U n r s → below_wrap (2 * n) → sr_world s !! h = Some m →
  (rg_remove U h c r).2 = Throw e →
  e = InsufficientChunkSize ∧ is_Some (m !! c) ∧
  ∃ cs, listed cs m ∧ layout (u_type U <$> cs) ≠ None ∧ layout (u_type U <$> filter (λ x, x ≠ c) cs) = None.
Proof.
  intros Hr Hbw Hm E. destruct (reached_ri U HU _ _ _ Hr Hbw) as (iss & hp & Hri). pose proof (ri_inv _ _ _ _ _ _ Hri) as H.
  destruct (remove_spec U HU _ _ _ _ _ _ _ _ _ _ c H Hm) as [(r' & hp' & E' & _)|[(r' & cs & E' & _ & Hmc & Hl & [x Hx] & Hg)|(_ & _ & E')]].
  - by rewrite E' in E.
  - rewrite E' in E. cbn in E. injection E as <-. split; [done|]. split; [done|]. exists cs. split; [exact Hl|].
    unfold layout. by rewrite Hx, Hg.
  - by rewrite E' in E.
Qed.

Lemma exact_size n r s h m c e : reached U n r s → below_wrap (2 * n) → sr_world s !! h = Some m → (rg_remove U h c r).2 = Throw e →
  ∃ cs, listed cs m ∧ (foldl add_elements 12 (u_type U <$> cs) <= 16388)%N ∧
    (16388 < foldl add_elements 12 (u_type U <$> filter (λ x, x ≠ c) cs))%N.
Proof.
  intros Hr Hbw Hm E. destruct (C51_exact_partial _ _ _ _ _ _ _ Hr Hbw Hm E) as (_ & _ & cs & Hl & H1 & H2). exists cs. split; [done|].
  unfold layout in *. split.
  - destruct (get_max_size (u_type U <$> cs)) eqn:E1; [|done]. destruct (decide (16388 < foldl add_elements 12 (u_type U <$> cs))%N) as [Hlt|]; [|lia].
    apply size_None in Hlt. congruence.
  - apply size_None. by destruct (get_max_size (u_type U <$> filter (λ x, x ≠ c) cs)).
Qed.

(** An entity whose components have one alignment. *)
Theorem C51_one_alignment_partial n r s h m c a e : reached U n r s → below_wrap (2 * n) → sr_world s !! h = Some m →
  (∀ x, is_Some (m !! x) → valid_type (u_type U x) ∧ ct_align (u_type U x) = a) →
  (rg_remove U h c r).2 ≠ Throw e.
Proof.
  intros Hr Hbw Hm Ha E. destruct (exact_size _ _ _ _ _ _ _ Hr Hbw Hm E) as (cs & [_ Hl] & H1 & H2).
  assert (∀ l, (∀ x, x ∈ l → x ∈ cs) → (foldl add_elements 12 (u_type U <$> l) = 12 + sizes (u_type U <$> l) + padding a (12 mod a) (length l))%N) as Hs.
  { intros l Hin. rewrite (same_align a), fmap_length; [done| |]; apply Forall_fmap, Forall_forall; intros x Hx; cbn; apply Ha, Hl, Hin, Hx. }
  rewrite Hs in H1 by done. rewrite Hs in H2 by (intros x [_ ?]%elem_of_list_filter; done).
  pose proof (sizes_filter (u_type U) (λ x, x ≠ c) cs). pose proof (filter_length (λ x, x ≠ c) cs) as Hlen.
  pose proof (padding_mono a (12 mod a)%N _ _ Hlen). lia.
Qed.

(** An entity with components of two alignments, one twice the other, up to 4 and 8: such as ints, pointers and doubles. *)
Theorem C51_two_alignments_partial n r s h m c (g : N) e : reached U n r s → below_wrap (2 * n) → sr_world s !! h = Some m →
  (g | 4)%N →
  (∀ x, is_Some (m !! x) → valid_type (u_type U x) ∧ (ct_align (u_type U x) = g ∨ ct_align (u_type U x) = (2 * g)%N)) →
  (rg_remove U h c r).2 ≠ Throw e.
Proof.
  intros Hr Hbw Hm [k Hg] Ha E. destruct (exact_size _ _ _ _ _ _ _ Hr Hbw Hm E) as (cs & [_ Hl] & H1 & H2).
  assert ((g | 12)%N) as H12 by (exists (3 * k)%N; lia).
  pose proof (two_filter (u_type U) (λ x, x ≠ c) g cs 12 12) as H. assert (g ≠ 0%N) by lia.
  assert (Forall (λ x, valid_type (u_type U x) ∧ (ct_align (u_type U x) = g ∨ ct_align (u_type U x) = (2 * g)%N)) cs) as Hf
    by (apply Forall_forall; intros x Hx; by apply Ha, Hl).
  specialize (H ltac:(done) Hf H12 H12 ltac:(lia)). lia.
Qed.

(** An entity whose components leave room for the largest padding. *)
Theorem C51_room_partial n r s h m cs c e : reached U n r s → below_wrap (2 * n) → sr_world s !! h = Some m →
  listed cs m → Forall (λ x, valid_type (u_type U x)) cs → (8 + roomy (u_type U <$> cs) <= 16384)%N →
  (rg_remove U h c r).2 ≠ Throw e.
Proof.
  intros Hr Hbw Hm [Hnd Hl] Hv Hs E. destruct (exact_size _ _ _ _ _ _ _ Hr Hbw Hm E) as (cs' & [Hnd' Hl'] & _ & H2).
  assert (cs' ≡ₚ cs) as Hp by (apply NoDup_Permutation; [done|done|]; intros x; by rewrite Hl, Hl').
  assert (∀ l, Forall (λ x, valid_type (u_type U x)) l → (foldl add_elements 12 (u_type U <$> l) <= 12 + roomy (u_type U <$> l))%N) as Hle.
  { intros l Hf. apply add_le, Forall_fmap. eapply Forall_impl; [done|]. intros x Hx. apply Hx. }
  assert (∀ l, (roomy (u_type U <$> filter (λ x, x ≠ c) l) <= roomy (u_type U <$> l))%N) as Hfl.
  { induction l as [|x l IH]; [done|]. rewrite filter_cons. case_decide; rewrite ?fmap_cons; cbn [roomy foldr]; fold (roomy (u_type U <$> l)); [|lia].
    fold (roomy (u_type U <$> filter (λ x, x ≠ c) l)). lia. }
  assert (roomy (u_type U <$> cs') = roomy (u_type U <$> cs)) as Ep.
  { clear -Hp. induction Hp as [|x l l' _ IH|x y l|l1 l2 l3 _ IH1 _ IH2]; rewrite ?fmap_cons; cbn [roomy foldr]; [done| | |congruence].
    - fold (roomy (u_type U <$> l)) (roomy (u_type U <$> l')). lia.
    - lia. }
  assert (Forall (λ x, valid_type (u_type U x)) (filter (λ x, x ≠ c) cs')) as Hf.
  { apply Forall_forall. intros x [_ Hx]%elem_of_list_filter. rewrite Hp in Hx. by eapply Forall_forall in Hv. }
  specialize (Hle _ Hf). specialize (Hfl cs'). lia.
Qed.
End remove.

(** C51 is false with alignments up to 4 as well: four components of one byte and a struct of ints fill the chunk, and do not
    fit without one of the bytes. *)
Definition U4 : universe :=
  Universe (λ c, if decide (c = 0%N) then entity_type else if decide (c = 5%N) then CType 16372 4 else CType 1 1) (λ _, true) 0%N.
Lemma U4_wf : u_wf U4.
Proof. split; [done| |done]. intros c. cbn. repeat case_decide; cbn; vm_compute; done. Qed.
Lemma U4_valid c : valid_type (u_type U4 c) ∧ (ct_align (u_type U4 c) <= 4)%N.
Proof.
  unfold U4, valid_type. cbn [u_type]. repeat case_decide; cbn [ct_size ct_align entity_type].
  - split; [|done]. split; [by exists 2%N|]. split; [done|]. by exists 2%N.
  - split; [|done]. split; [by exists 2%N|]. split; [done|]. by exists 4093%N.
  - split; [|done]. split; [by exists 0%N|]. split; [done|]. by exists 1%N.
Qed.
Definition ops51 : list sop := [At 0 (OCreate [(1%N, Val 1); (2%N, Val 2); (3%N, Val 3); (4%N, Val 4); (5%N, Val 5)])].
Theorem C51_small_alignment_refuted : (∀ c, valid_type (u_type U4 c) ∧ (ct_align (u_type U4 c) <= 4)%N) ∧
  ∃ n r s h m c, reached U4 n r s ∧ below_wrap (2 * n) ∧ sr_world s !! h = Some m ∧ permitted U4 s (ORemove h c) ∧
    (rg_remove U4 h c r).2 = Throw InsufficientChunkSize.
Proof.
  split; [apply U4_valid|].
  set (rs := default [] (fst <$> prog U4 ops51 [rg_init] [sreg_init])). set (ss := default [] (snd <$> prog U4 ops51 [rg_init] [sreg_init])).
  exists 1, (default rg_init (rs !! 0)), (default sreg_init (ss !! 0)), (Handle 0 0),
    {[1%N := Val 1; 2%N := Val 2; 3%N := Val 3; 4%N := Val 4; 5%N := Val 5]}, 1%N.
  split. { exists rs, ss, 0. split; [apply (prog_reach U4 U4_wf 1 ops51); by vm_compute|]. by vm_compute. }
  split; [by vm_compute|]. split; [apply (bool_decide_unpack _); by vm_compute|].
  split; [apply (permitted_ok U4); by vm_compute|]. by vm_compute.
Qed.

(** Example: the same sizes as in [C51_remove_refuted], with alignment 8 in place of 16; the chunk is full. *)
Definition U5 : universe :=
  Universe (λ c, if decide (c = 0%N) then entity_type else if decide (c = 2%N) then CType 16368 8 else CType 4 4) (λ _, true) 0%N.
Lemma U5_wf : u_wf U5.
Proof. split; [done| |done]. intros c. cbn. repeat case_decide; cbn; vm_compute; done. Qed.
Definition ops51b : list sop := [At 0 (OCreate [(1%N, Val 1); (2%N, Val 2)])].
Example C51_example : ∃ n r s h m, reached U5 n r s ∧ below_wrap (2 * n) ∧ sr_world s !! h = Some m ∧ (4 | 4)%N ∧
  (∀ x, is_Some (m !! x) → valid_type (u_type U5 x) ∧ (ct_align (u_type U5 x) = 4%N ∨ ct_align (u_type U5 x) = (2 * 4)%N)) ∧
  (rg_remove U5 h 1 r).2 = Ok tt ∧ (rg_remove U5 h 2 r).2 = Ok tt.
Proof.
  set (rs := default [] (fst <$> prog U5 ops51b [rg_init] [sreg_init])). set (ss := default [] (snd <$> prog U5 ops51b [rg_init] [sreg_init])).
  exists 1, (default rg_init (rs !! 0)), (default sreg_init (ss !! 0)), (Handle 0 0), {[1%N := Val 1; 2%N := Val 2]}.
  split. { exists rs, ss, 0. split; [apply (prog_reach U5 U5_wf 1 ops51b); by vm_compute|]. by vm_compute. }
  split; [by vm_compute|]. split; [apply (bool_decide_unpack _); by vm_compute|]. split; [by exists 1%N|].
  split; [|split; by vm_compute]. intros x [v [[<- _]|[_ [<- _]%lookup_singleton_Some]]%lookup_insert_Some]; unfold valid_type; cbn [U5 u_type ct_align ct_size decide].
  - split; [|by left]. split; [by exists 2%N|]. split; [done|]. by exists 1%N.
  - split; [|by right]. split; [by exists 3%N|]. split; [done|]. by exists 2046%N.
Qed.
(** One alignment, and room for the padding. *)
Definition ops51c : list sop := [At 0 (OCreate [(1%N, Val 1); (3%N, Val 2)])].
Example C51_example_more : ∃ n r s h m, reached U5 n r s ∧ below_wrap (2 * n) ∧ sr_world s !! h = Some m ∧
  (∀ x, is_Some (m !! x) → valid_type (u_type U5 x) ∧ ct_align (u_type U5 x) = 4%N) ∧
  listed [3%N; 1%N] m ∧ Forall (λ x, valid_type (u_type U5 x)) [3%N; 1%N] ∧ (8 + roomy (u_type U5 <$> [3; 1]) <= 16384)%N.
Proof.
  set (rs := default [] (fst <$> prog U5 ops51c [rg_init] [sreg_init])). set (ss := default [] (snd <$> prog U5 ops51c [rg_init] [sreg_init])).
  exists 1, (default rg_init (rs !! 0)), (default sreg_init (ss !! 0)), (Handle 0 0), {[1%N := Val 1; 3%N := Val 2]}.
  split. { exists rs, ss, 0. split; [apply (prog_reach U5 U5_wf 1 ops51c); by vm_compute|]. by vm_compute. }
  split; [by vm_compute|]. split; [apply (bool_decide_unpack _); by vm_compute|].
  assert (valid_type (CType 4 4)) as Hv. { split; [by exists 2%N|]. split; [done|]. by exists 1%N. }
  split; [|split; [split|split]].
  - by intros x [v [[<- _]|[_ [<- _]%lookup_singleton_Some]]%lookup_insert_Some].
  - by apply (bool_decide_unpack _).
  - intros c. split.
    + intros [->|[->|[]%elem_of_nil]%elem_of_cons]%elem_of_cons; by apply (bool_decide_unpack _).
    + intros [v [[<- _]|[_ [<- _]%lookup_singleton_Some]]%lookup_insert_Some]; [right; left|left].
  - constructor; [exact Hv|]. constructor; [exact Hv|constructor].
  - by vm_compute.
Qed.

Print Assumptions C51_exact_partial.
Print Assumptions C51_one_alignment_partial.
Print Assumptions C51_two_alignments_partial.
Print Assumptions C51_room_partial.
Print Assumptions C51_small_alignment_refuted.
