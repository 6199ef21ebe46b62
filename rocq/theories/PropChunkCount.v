(** C96: memory of destroyed entities is used again. *)
From Verif Require Import Base Bits Layout PropLayout HandlePool HandleSpec HandlePoolProofs SparseMap SparseMapProofs
  HashTable HashTableProofs HashTableMap Bitset BitsetProofs ComponentSet ComponentSetProofs
  Chunk ChunkProofs Archetype ArchetypeProofs Registry RegistryStore RegistryProofs View ViewProofs RegSpec RegSpecProofs RegRun ChunkCount ChunkCountProofs ChunkPackedProofs.

(** After [k] rounds: [k] empty chunks, and one with the only entity. *)
Record rounds (k n : nat) (r : registry) (s : sreg) : Prop := {
  ro_narrow : narrow U0 {[6%N]} 3 n r s;
  ro_pend : sr_pending s = [];
  ro_state : ∃ iss hp ar h m, ri U0 n r s iss hp ∧ sr_world s = {[h := m]} ∧ h ∈ sr_issued s ∧
    hp !! 0 = Some ([6%N], replicate k [] ++ [[(h, m)]]) ∧ rg_heap r !! 0 = Some ar ∧ ar_max ar = 2 }.

Lemma round k n r s : rounds k n r s → below_wrap (4 + n) → ∃ r' s', rounds (S k) (4 + n) r' s'.
Proof.
  intros [Hn Hp (iss & hp & ar & h & m & Hri & Hw & Hh & Hhp & Har & Hm)] Hbw.
  assert (∀ i, i ≤ 4 → below_wrap (i + n)) as Hbw' by (unfold below_wrap in *; lia).
  assert (list_to_set [(6%N, Val 1)].*1 = ({[6%N]} : gset cid)) as HC by (cbn; by rewrite (right_id_L ∅ (∪))).
  assert (NoDup [(6%N, Val 1)].*1) as Hnd by (apply (bool_decide_unpack _); by vm_compute).
  assert (u_ent U0 ∉ [(6%N, Val 1)].*1) as Hent by (apply (bool_decide_unpack _); by vm_compute).
  destruct (narrow_create U0 U0_wf {[6%N]} 3 n r s iss hp [(6%N, Val 1)] 0 (replicate k []) [(h, m)] ar Hn HC Hri (Hbw' 1 ltac:(lia)) Hp Hnd Hent Hhp Har)
    as (r1 & s1 & h1 & hp1 & ar1 & Hn1 & Hri1 & Hp1 & Hf1 & Hw1 & Hi1 & Hs1 & Hhp1 & Har1 & Hm1).
  { rewrite Hw, map_size_singleton. lia. }
  rewrite Hm in Hhp1, Hm1. unfold put_row in Hhp1. rewrite decide_False in Hhp1 by (cbn; lia). cbn [app] in Hhp1.
  destruct (narrow_create U0 U0_wf {[6%N]} 3 (1 + n) r1 s1 _ hp1 [(6%N, Val 1)] 0 (replicate k []) _ ar1 Hn1 HC Hri1 (Hbw' 2 ltac:(lia)) Hp1 Hnd Hent Hhp1 Har1)
    as (r2 & s2 & h2 & hp2 & ar2 & Hn2 & Hri2 & Hp2 & Hf2 & Hw2 & Hi2 & Hs2 & Hhp2 & Har2 & Hm2).
  { rewrite Hw1, map_size_insert, Hf1, Hw, map_size_singleton. lia. }
  rewrite Hm1 in Hhp2, Hm2. unfold put_row in Hhp2. rewrite decide_True in Hhp2 by done.
  set (m1 := list_to_map [(6%N, Val 1)]) in *.
  destruct (narrow_destroy U0 U0_wf {[6%N]} 3 (2 + n) r2 s2 _ hp2 h1 m1 0 [6%N] (replicate k []) [(h, m)] [] [(h2, m1)] ar2 Hn2 Hri2 (Hbw' 3 ltac:(lia)) Hp2)
    as (r3 & s3 & ar3 & Hn3 & Hri3 & Hp3 & Hw3 & Hi3 & Har3 & Hm3).
  { set_solver. }
  { exact Hhp2. }
  { discriminate. }
  { exact Har2. }
  { rewrite Hw2, map_size_insert, Hf2, Hw1, map_size_insert, Hf1, Hw, map_size_singleton. lia. }
  rewrite Hm2 in Hm3.
  destruct (narrow_destroy U0 U0_wf {[6%N]} 3 (3 + n) r3 s3 _ _ h m 0 [6%N] (replicate k []) [] [] [(h2, m1)] ar3 Hn3 Hri3 (Hbw' 4 ltac:(lia)) Hp3)
    as (r4 & s4 & ar4 & Hn4 & Hri4 & Hp4 & Hw4 & Hi4 & Har4 & Hm4).
  { rewrite Hi3. set_solver. }
  { rewrite list_lookup_insert; [done|]. by eapply lookup_lt_Some. }
  { discriminate. }
  { exact Har3. }
  { assert (size (sr_world s2) ≤ 3) by (rewrite Hw2, map_size_insert, Hf2, Hw1, map_size_insert, Hf1, Hw, map_size_singleton; lia).
    rewrite Hw3, map_size_delete. destruct (sr_world s2 !! h1); cbn; lia. }
  rewrite Hm3 in Hm4.
  exists r4, s4. split; [done|done|].
  eexists _, _, ar4, h2, m1. split; [exact Hri4|]. split.
  { rewrite Hw4, Hw3, Hw2, Hw1, Hw.
    assert (h ≠ h1) as N1 by (intros ->; by rewrite Hw, lookup_singleton in Hf1).
    assert (h2 ≠ h1) as N2 by (intros ->; by rewrite Hw1, lookup_insert in Hf2).
    assert (h2 ≠ h) as N3 by (intros ->; by rewrite Hw1, lookup_insert_ne, Hw, lookup_singleton in Hf2).
    apply map_eq. intros g. destruct (decide (g = h2)) as [->|]; [by rewrite !lookup_delete_ne, lookup_insert, lookup_singleton by done|].
    rewrite (lookup_singleton_ne h2) by done. destruct (decide (g = h)) as [->|]; [by rewrite lookup_delete|]. rewrite lookup_delete_ne by done.
    destruct (decide (g = h1)) as [->|]; [by rewrite lookup_delete|]. rewrite lookup_delete_ne by done.
    by rewrite !lookup_insert_ne, lookup_singleton_ne by done. }
  split; [rewrite Hi4, Hi3; done|]. split; [|done].
  rewrite list_lookup_insert.
  - f_equal. f_equal. cbn [app]. change ([] :: [[(h2, m1)]]) with ([[]] ++ [[(h2, m1)]]). rewrite (assoc_L (++)). f_equal.
    change (replicate (S k) ([] : list row)) with ([] :: replicate k ([] : list row)). by rewrite <- replicate_cons_app.
  - rewrite insert_length. by eapply lookup_lt_Some.
Qed.

(** The first entity. *)
Definition r96 : registry := (rg_create U0 [(6%N, Val 1)] rg_init).1.
Definition s96 : sreg := SReg {[Handle 0 0 := {[6%N := Val 1]}]} [Handle 0 0] [] [] false false.
Lemma run96 : run_rop U0 (OCreate [(6%N, Val 1)]) rg_init = (r96, Ok (RHandle (Handle 0 0))).
Proof.
  assert ((run_rop U0 (OCreate [(6%N, Val 1)]) rg_init).2 = Ok (RHandle (Handle 0 0))) as E by (by vm_compute).
  cbn [run_rop] in *. unfold mapM, r96 in *. destruct (rg_create U0 [(6%N, Val 1)] rg_init) as [r o]. cbn [fst snd] in *. by rewrite E.
Qed.
Lemma facts96 : (λ ar, (ar_max ar, ms_metas (ar_comps ar), ck_size <$> ar_chunks ar)) <$> rg_heap r96 = [(2, [6%N], [1])].
Proof. by vm_compute. Qed.
Lemma next96 : rnext U0 sreg_init (OCreate [(6%N, Val 1)]) (Ok (RHandle (Handle 0 0))) s96.
Proof. left. exists (Handle 0 0). split; [apply not_elem_of_nil|]. done. Qed.

Lemma first_round : rounds 0 1 r96 s96.
Proof.
  assert (∃ iss hp, ri U0 1 r96 s96 iss hp) as (iss & hp & Hri).
  { destruct (create_spec U0 U0_wf true 0 rg_init [] [] [] ∅ [(6%N, Val 1)]) as (r' & o & h & hp' & Hrun & Hh & Hc).
    - apply rinv_init.
    - done.
    - apply (bool_decide_unpack _); by vm_compute.
    - apply (bool_decide_unpack _); by vm_compute.
    - pose proof run96 as Hr. cbn [run_rop] in Hr. unfold mapM in Hr. rewrite Hrun in Hr. destruct Hc as [(-> & Hri & _ & Hk)|(-> & _)]; [|done].
      cbn [omap_out] in Hr. injection Hr as <- ->. exists [Handle 0 0], hp'. split; [done|exact Hri|]. intros _. apply Hk.
      apply (ri_nn _ _ _ _ _ _ (ri_init U0 0)). done. }
  split; [|done|].
  - eapply (NarrowS U0 {[6%N]} 3 0 rg_init sreg_init); [constructor| |exact run96|exact next96|by eapply (ri_agrees U0 U0_wf)|by vm_compute; lia|].
    2:{ intros h m. cbn. intros [_ <-]%lookup_singleton_Some. apply dom_singleton_L. }
    split; [done|]. split; apply (bool_decide_unpack _); by vm_compute.
  - pose proof facts96 as Hf. pose proof (ri_inv _ _ _ _ _ _ Hri) as H. pose proof (si_heap _ _ _ _ (rv_st _ _ _ _ _ _ _ _ _ H)) as Hh.
    destruct (rg_heap r96) as [|ar [|]] eqn:Eh; [done| |done]. cbn in Hf. injection Hf as Hmx Hms Hck.
    inversion Hh as [|? [cs rowss] ? ? Hrep Hn]; subst. inversion Hn; subst. cbn [fst snd] in Hrep.
    rewrite (ap_cs _ _ _ _ _ Hrep) in Hms. subst cs.
    pose proof (ap_ks _ _ _ _ _ Hrep) as Hks. destruct (ar_chunks ar) as [|k [|]]; [done| |done]. cbn in Hck. injection Hck as Hck.
    inversion Hks as [|? rows ? ? Hk Hks0]; subst. inversion Hks0; subst.
    pose proof (cr_size _ _ _ _ _ _ _ Hk) as Hsz. rewrite Hck in Hsz. destruct rows as [|[h m] [|]]; [done| |done].
    assert (sr_world s96 !! h = Some m) as Hw.
    { apply (lw_world _ _ _ (rv_lw _ _ _ _ _ _ _ _ _ H)). exists (0, (0, 0)). done. }
    unfold s96 in Hw. cbn [sr_world] in Hw. apply lookup_singleton_Some in Hw as [<- <-].
    eexists iss, _, ar, (Handle 0 0), _. split; [exact Hri|]. split; [done|]. split; [by left|]. split; [done|]. split; [done|exact Hmx].
Qed.

Lemma many_rounds k : below_wrap (1 + 4 * k) → ∃ r s, rounds k (1 + 4 * k) r s.
Proof.
  induction k as [|k IH]; intros Hbw; [exists r96, s96; apply first_round|].
  destruct IH as (r & s & Hr); [unfold below_wrap in *; lia|].
  replace (1 + 4 * S k) with (4 + (1 + 4 * k)) in * by lia. by eapply round.
Qed.

(** A program that never has more than three entities, all with the same component, ends with one entity and any number of chunks. *)
Theorem C96_refuted k : below_wrap (1 + 4 * k) → ∃ r s, narrow U0 {[6%N]} 3 (1 + 4 * k) r s ∧ size (sr_world s) = 1 ∧ k < chunks_of r.
Proof.
  intros Hbw. destruct (many_rounds k Hbw) as (r & s & [Hn Hp (iss & hp & ar & h & m & Hri & Hw & Hh & Hhp & Har & Hm)]).
  exists r, s. split; [done|]. split; [by rewrite Hw, map_size_singleton|].
  destruct (st_arch U0 _ _ _ _ _ (rv_st _ _ _ _ _ _ _ _ _ (ri_inv _ _ _ _ _ _ Hri)) Hhp) as (ar' & Har' & Hrep). rewrite Har in Har'. injection Har' as <-.
  pose proof (ar_len _ _ _ _ _ Hrep) as Hl. cbn [snd] in Hl. rewrite app_length, replicate_length in Hl. cbn in Hl.
  unfold chunks_of. destruct (rg_heap r) as [|x l]; [done|]. cbn in Har. injection Har as ->. cbn. lia.
Qed.

(** What holds: as long as no entity is taken from the last row of a chunk that is not the last of its archetype, all chunks
    but the last of every archetype are full.  Missing: calls that take such an entity (above). *)
Theorem C96_packed_partial U n r s : u_wf U → below_wrap (2 * n) → tidy U n r s → sum_list (needed <$> rg_heap r) ≤ size (sr_world s).
Proof. intros HU Hbw Ht. by apply (tidy_needed U HU n). Qed.

Definition ops96 : list rop :=
  [OCreate [(6%N, Val 1)]; OCreate [(6%N, Val 2)]; OCreate [(6%N, Val 3)]; OCreate [(6%N, Val 4)]; OCreate [(6%N, Val 5)];
   ODestroy (Handle 0 0); OSet (Handle 2 0) 1%N (CtorOk (Val 7)); OCreate [(6%N, Val 6)]].
Example C96_example : ∃ r s, tidy U0 8 r s ∧ needed <$> rg_heap r = [2; 0] ∧ chunks_of r = 3 ∧ size (sr_world s) = 5.
Proof.
  assert ((λ p, ((needed <$> rg_heap p.1, chunks_of p.1), size (sr_world p.2))) <$> tprog U0 ops96 rg_init sreg_init = Some (([2; 0], 3), 5)) as E by (by vm_compute).
  destruct (tprog U0 ops96 rg_init sreg_init) as [[r s]|] eqn:Ep; [|discriminate E]. cbn [fmap option_fmap option_map fst snd] in E. injection E as E1 E2 E3.
  exists r, s. split; [|exact (conj E1 (conj E2 E3))]. clear E1 E2 E3.
  apply (tprog_tidy U0 U0_wf ops96 0 rg_init sreg_init); [constructor|clear Ep; by vm_compute|exact Ep].
Qed.

Print Assumptions C96_refuted.
Print Assumptions C96_packed_partial.
