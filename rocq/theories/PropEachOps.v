(** C74: callbacks of each that use the registry. *)
From Verif Require Import Base Bits Layout PropLayout HandlePool HandleSpec HandlePoolProofs SparseMap SparseMapProofs
  HashTable HashTableProofs HashTableMap Bitset BitsetProofs ComponentSet ComponentSetProofs
  Chunk ChunkProofs Archetype ArchetypeProofs Registry RegistryStore RegistryProofs View ViewProofs RegSpec RegSpecProofs
  RegObs RegRun PropRegistry EachOps EachOpsProofs.

Section props.
Context (U : universe) (HU : u_wf U).

(** C74, for programs that leave every entity where it is: a loop calls its function for every matching entity
    exactly once, in an order fixed when it begins, with the components the entity has by then; every call has
    the effect it has outside of loops; afterwards the registry is one of those all other theorems speak of.
    Missing: calls that move entities; see the refutations below. *)
Theorem C74_calm_partial n r s p N : reached U n r s → sr_failed s = false → calm U s p → calls (size (sr_world s)) p N →
  below_wrap (2 * (n + N)) →
  ∃ n' r' o s', run_rprog U [] p r = (r', o) ∧ o ≠ UB ∧ sp_prog U p s o s' ∧ reached U n' r' s' ∧ n' ≤ n + N ∧ alike s s'.
Proof.
  intros Hr Hf Hc Hn Hbw. destruct (prog_ok U HU s p [] N n r s Hc Hn Hr (alike_refl s) Hf Hbw) as (n' & r' & o & s' & ? & ? & ? & ? & ? & _ & ?).
  exists n', r', o, s'. done.
Qed.
End props.

(** * Calls that move entities *)

(** Six entities: two with component 1, two with 1 and 2, one with 3, one with 3 and 4. *)
Definition ops_a : list sop :=
  [ At 0 (OCreate [(1%N, Val 10)]); At 0 (OCreate [(1%N, Val 11)]); At 0 (OCreate [(1%N, Val 12); (2%N, Val 22)]);
    At 0 (OCreate [(1%N, Val 13); (2%N, Val 23)]); At 0 (OCreate [(3%N, Val 34)]); At 0 (OCreate [(3%N, Val 35); (4%N, Val 45)]) ].
Definition rs_a : list registry := default [] (fst <$> prog U0 ops_a (replicate 1 rg_init) (replicate 1 sreg_init)).
Definition ss_a : list sreg := default [] (snd <$> prog U0 ops_a (replicate 1 rg_init) (replicate 1 sreg_init)).
Definition r_a := default rg_init (rs_a !! 0). Definition s_a := default sreg_init (ss_a !! 0).
Lemma reached_a : reached U0 6 r_a s_a.
Proof.
  exists rs_a, ss_a, 0. split; [|split; vm_compute; exact eq_refl]. apply (prog_reach U0 U0_wf 1 ops_a); [vm_compute; done|].
  unfold rs_a, ss_a. destruct (prog _ _ _ _) as [[??]|] eqn:E; [done|]. by vm_compute in E.
Qed.

Lemma issued_a (i : N) : (i < 6)%N → Handle i 0 ∈ sr_issued s_a.
Proof.
  intros Hi. assert (sr_issued s_a = (λ i, Handle i 0) <$> [5; 4; 3; 2; 1; 0]%N) as -> by (vm_compute; reflexivity).
  apply elem_of_list_fmap. exists i. split; [done|]. rewrite !elem_of_cons. lia.
Qed.

(** The function calls [op] once, when it is first given the entity [h]; the entity is its first argument. *)
Definition once (h : handle) (op : rop) : vlog → list cell → rprog := λ log xs,
  if decide (head xs = Some (CEnt h) ∧ Forall (λ ys, head ys ≠ Some (CEnt h)) log) then RCall op (λ _, RRet) else RRet.
Definition looping (U : universe) (rq : list vreq) (g : vlog → list cell → rprog) (r : registry) : outcome vlog :=
  (ev_each U rq (λ p log xs, run_rprog U [p] (g log xs)) r).2.
(** A call that succeeds outside of loops, and invalidates no iterator of a loop over any archetype. *)
Definition harmless (U : universe) (op : rop) (r : registry) : Prop :=
  (run_rop U op r).2 = Ok RUnit ∧ iters_ok (Some <$> seq 0 (length (rg_heap r))) r (run_rop U op r).1 = true.

(** Destroying the visited entity: the loop goes on to read a row that no longer exists. *)
Theorem C74_destroy_refuted : ∃ U n r s rq h, u_wf U ∧ reached U n r s ∧ below_wrap (2 * S n) ∧ sr_failed s = false ∧ hole_free r ∧
  permitted U s (ODestroy h) ∧ harmless U (ODestroy h) r ∧ looping U rq (once h (ODestroy h)) r = UB.
Proof.
  exists U0, 6, r_a, s_a, [VReq 0 false; VReq 1 false], e0. split; [exact U0_wf|]. split; [exact reached_a|]. split; [by vm_compute|].
  split; [by vm_compute|]. split; [apply hole_free_ok; by vm_compute|]. split; [by vm_compute|].
  split; [split; by vm_compute|]. by vm_compute.
Qed.

(** Adding a component to the visited entity. *)
Theorem C74_add_refuted : ∃ U n r s rq h c v, u_wf U ∧ reached U n r s ∧ below_wrap (2 * S n) ∧ sr_failed s = false ∧ hole_free r ∧
  permitted U s (OSet h c (CtorOk v)) ∧ harmless U (OSet h c (CtorOk v)) r ∧ looping U rq (once h (OSet h c (CtorOk v))) r = UB.
Proof.
  exists U0, 6, r_a, s_a, [VReq 0 false; VReq 1 false], e0, 2%N, (Val 99). split; [exact U0_wf|]. split; [exact reached_a|]. split; [by vm_compute|].
  split; [by vm_compute|]. split; [apply hole_free_ok; by vm_compute|].
  split; [split; [discriminate|intros Hx; discriminate Hx]|]. split; [split; by vm_compute|]. by vm_compute.
Qed.

(** Removing a component from the visited entity. *)
Theorem C74_remove_refuted : ∃ U n r s rq h c, u_wf U ∧ reached U n r s ∧ below_wrap (2 * S n) ∧ sr_failed s = false ∧ hole_free r ∧
  permitted U s (ORemove h c) ∧ harmless U (ORemove h c) r ∧ looping U rq (once h (ORemove h c)) r = UB.
Proof.
  exists U0, 6, r_a, s_a, [VReq 0 false; VReq 1 false], e2, 2%N. split; [exact U0_wf|]. split; [exact reached_a|]. split; [by vm_compute|].
  split; [by vm_compute|]. split; [apply hole_free_ok; by vm_compute|].
  split; [discriminate|]. split; [split; by vm_compute|]. by vm_compute.
Qed.

(** Without undefined behaviour, one entity may be visited twice. *)
Theorem C74_twice_refuted : ∃ U n r s rq h c v l (i j : nat) xs ys, u_wf U ∧ reached U n r s ∧ below_wrap (2 * S n) ∧ sr_failed s = false ∧
  hole_free r ∧ permitted U s (OSet h c (CtorOk v)) ∧ looping U rq (once h (OSet h c (CtorOk v))) r = Ok l ∧
  i ≠ j ∧ l !! i = Some (CEnt h :: xs) ∧ l !! j = Some (CEnt h :: ys).
Proof.
  exists U0, 6, r_a, s_a, [VReq 0 false; VReq 3 false], (Handle 4 0), 4%N, (Val 99),
    [[CEnt (Handle 4 0); CVal (Val 34)]; [CEnt (Handle 5 0); CVal (Val 35)]; [CEnt (Handle 4 0); CVal (Val 34)]], 0, 2, [CVal (Val 34)], [CVal (Val 34)].
  split; [exact U0_wf|]. split; [exact reached_a|]. split; [by vm_compute|].
  split; [by vm_compute|]. split; [apply hole_free_ok; by vm_compute|].
  split; [split; [discriminate|intros Hx; discriminate Hx]|]. split; [vm_compute; reflexivity|].
  split; [discriminate|]. split; reflexivity.
Qed.

(** A new entity with the requested components, created in the loop, need not be visited. *)
Example ex_C74_created : looping U0 [VReq 0 false; VReq 3 false] (once (Handle 5 0) (OCreate [(3%N, Val 4)])) r_a =
  Ok [[CEnt (Handle 4 0); CVal (Val 34)]; [CEnt (Handle 5 0); CVal (Val 35)]].
Proof. vm_compute. reflexivity. Qed.

(** * Examples *)

(** A loop over all pairs: component 1 of every entity becomes what get returns for the last other one. *)
Definition pairs : rprog :=
  REach [VReq 0 false; VReq 1 false] (λ _ xs,
    match xs with
    | CEnt h :: _ =>
        REach [VReq 0 false; VReq 1 false] (λ _ ys,
          match ys with
          | CEnt g :: _ => if decide (g = h) then RRet
              else RCall (OGet g 1) (λ o, match o with
                                          | Ok (RCell (CVal v)) => RCall (OSet h 1 (CtorOk v)) (λ _, RRet)
                                          | _ => RRet
                                          end)
          | _ => RRet
          end) (λ _, RRet)
    | _ => RRet
    end) (λ _, RRet).
Lemma pairs_calm n r s : reached U0 n r s → below_wrap (2 * n) → calm U0 s pairs.
Proof.
  intros Hr Hbw. assert (VReq 0 true ∉ [VReq 0 false; VReq 1 false]) as Hn by (rewrite !elem_of_cons; intros [|[|[]%elem_of_nil]]; discriminate).
  assert (∀ s0 h m, alike s s0 → sr_world s0 !! h = Some m → matches U0 [VReq 0 false; VReq 1 false] (h, m) → h ∈ sr_issued s ∧
    ∀ m, sr_world s !! h = Some m → is_Some (m !! 1%N)) as H1.
  { intros s0 h m Ha Hm Hma. destruct (alike_at _ _ _ _ (alike_sym _ _ Ha) Hm) as (m' & Hm' & Hd). split.
    - by apply (world_live U0 U0_wf _ _ _ _ _ Hr Hbw Hm').
    - intros m2 Hm2. assert (m2 = m') as -> by congruence. apply Hd. apply Forall_cons in Hma as [_ Hma]. apply Forall_cons in Hma as [[x Hx] _].
      unfold arg_of in Hx. cbn in Hx. destruct (m !! 1%N); [eauto|done]. }
  split; [done|]. split; [done|]. split; [|done]. intros s0 h m log Ha Hm Hma. destruct (H1 _ _ _ Ha Hm Hma) as [Hi Hc].
  change (args_of U0 [VReq 0 false; VReq 1 false] (h, m)) with (CEnt h :: omap (arg_of U0 h m) [VReq 1 false]). cbv iota.
  split; [done|]. split; [done|]. split; [|done]. intros s1 g m1 log1 Ha1 Hm1 Hma1. destruct (H1 _ _ _ Ha1 Hm1 Hma1) as [Hi1 _].
  change (args_of U0 [VReq 0 false; VReq 1 false] (g, m1)) with (CEnt g :: omap (arg_of U0 g m1) [VReq 1 false]). cbv iota.
  destruct (decide (g = h)); [done|]. split; [split; [discriminate|done]|]. intros s2 o s3 _ _.
  destruct o as [[| |[]| | | | |]|e|]; done.
Qed.
Lemma pairs_calls M : calls M pairs (M * (M * 2 + 0) + 0).
Proof.
  exists (M * 2 + 0), 0. split; [done|]. split; [|done]. intros _ xs. destruct xs as [|[h|v] xs]; [done| |done].
  exists 2, 0. split; [done|]. split; [|done]. intros _ ys. destruct ys as [|[g|v] ys]; [done| |done]. destruct (decide (g = h)); [done|].
  exists 1. split; [done|]. intros o. destruct o as [[| |[]| | | | |]|e|]; try done. exists 0. done.
Qed.
Example ex_C74_pairs : ∃ n' r' o s', run_rprog U0 [] pairs r_a = (r', o) ∧ o ≠ UB ∧ sp_prog U0 pairs s_a o s' ∧ reached U0 n' r' s' ∧
  n' ≤ 6 + (6 * (6 * 2 + 0) + 0) ∧ alike s_a s'.
Proof.
  apply (C74_calm_partial U0 U0_wf 6 r_a s_a pairs (6 * (6 * 2 + 0) + 0) reached_a).
  - by vm_compute.
  - apply (pairs_calm 6 r_a s_a reached_a). by vm_compute.
  - assert (size (sr_world s_a) = 6) as -> by (by vm_compute). apply pairs_calls.
  - by vm_compute.
Qed.
Example ex_C74_pairs_run : let r' := (run_rprog U0 [] pairs r_a).1 in
  (rg_get e0 1 r').2 = Ok (CVal (Val 13)) ∧ (rg_get e1 1 r').2 = Ok (CVal (Val 13)) ∧ (rg_get (Handle 3 0) 1 r').2 = Ok (CVal (Val 13)) ∧ (rg_get (Handle 4 0) 3 r').2 = Ok (CVal (Val 34)).
Proof. vm_compute. repeat split. Qed.

Print Assumptions C74_calm_partial.
Print Assumptions C74_destroy_refuted.
Print Assumptions C74_add_refuted.
Print Assumptions C74_remove_refuted.
Print Assumptions C74_twice_refuted.
