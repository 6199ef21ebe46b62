(** C99: the ids of destroyed entities are used again. *)
From Verif Require Import Base Bits Layout PropLayout HandlePool HandleSpec HandlePoolProofs SparseMap SparseMapProofs
  HashTable HashTableProofs HashTableMap Bitset BitsetProofs ComponentSet ComponentSetProofs
  Chunk ChunkProofs Archetype ArchetypeProofs Registry RegistryStore RegistryProofs View ViewProofs RegSpec RegSpecProofs RegObs RegRun
  Placeholder PlaceholderProofs Reuse ReuseProofs.

(** The pool alone, with reservations from any number of threads: at most [K] handles in use or being reserved at any time
    need at most the ids 0 to [K - 1], however many handles are handed out over time. *)
Theorem C99_pool_partial K n s h : few K n s → below_wrap n → h ∈ hs_issued s → (h_id h < N.of_nat K)%N.
Proof.
  intros Hf Hw Hh. destruct (few_bound _ _ _ Hf Hw) as [_ Hb].
  pose proof (hi_iss_lt _ _ (hinv_reach _ _ (few_reach _ _ _ Hf) Hw) h Hh). lia.
Qed.

Section reuse.
Variable U : universe.
Hypothesis HU : u_wf U.

(** A registry: at most [K] handles in use at any time, and [L] failed calls of create, clone, copy and move, need at most
    the ids 0 to [K + L - 1]. *)
Theorem C99_ids_partial K (i : nat) L n rs ss s h : frugal U K i L n rs ss → below_wrap (2 * n) → ss !! i = Some s → h ∈ sr_issued s →
  (h_id h < N.of_nat (K + L))%N.
Proof.
  intros Hf Hw Hs Hh. pose proof (frugal_reach U _ _ _ _ _ _ Hf) as Hre.
  destruct (sys_get U _ _ _ _ _ (reach_sys U HU _ _ _ Hre Hw) Hs) as (r & iss & hp & Hr & Hri).
  destruct (frugal_bound U HU _ _ _ _ _ _ r s Hf Hw Hr Hs) as (_ & Hb & _).
  pose proof (hi_iss_lt _ _ (rv_pool _ _ _ _ _ _ _ _ _ (ri_inv _ _ _ _ _ _ Hri)) h (ri_iss _ _ _ _ _ _ Hri h Hh)) as Hl. cbn [hs_pool] in Hl. lia.
Qed.
(** No such call failed. *)
Theorem C99_unfailing_partial K (i : nat) n rs ss s h : frugal U K i 0 n rs ss → below_wrap (2 * n) → ss !! i = Some s → h ∈ sr_issued s →
  (h_id h < N.of_nat K)%N.
Proof. intros Hf Hw Hs Hh. pose proof (C99_ids_partial K i 0 n rs ss s h Hf Hw Hs Hh). by rewrite Nat.add_0_r in *. Qed.

(** * Failed calls *)
Definition gone (k : nat) : registry := rg_set_pool rg_init (Pool (N.of_nat k) 0 (replicate k 0%N) []).

Lemma clone_gone k : below_wrap (2 * S k) → run_sop U (At 0 (OClone invalid_handle)) [gone k] = ([gone (S k)], Throw EntityNotFound).
Proof.
  intros Hw. cbn [run_sop]. unfold on_reg. cbn [lookup list_lookup run_rop]. unfold mapM, rg_clone, bind, rg_allocate, pool_create.
  change (free_ids (rg_pool (gone k))) with ([] : list N). cbn [last rg_set_pool gone rg_init rg_pool rg_heap rg_table rg_search rg_locs next_id gens cursor].
  rewrite inc32_small by (unfold below_wrap in Hw; change (2 ^ 32)%N with w32 in Hw; lia).
  replace (replicate k 0%N ++ [0%N]) with (replicate (S k) 0%N) by (by rewrite <- replicate_cons_app).
  replace (N.of_nat k + 1)%N with (N.of_nat (S k)) by lia. unfold get. cbn [fst snd]. unfold rg_copy_into, bind at 1. cbn [fst snd].
  unfold rg_location, rg_alive. cbn [rg_set_pool rg_pool].
  assert (pool_alive (Pool (N.of_nat (S k)) 0 (replicate (S k) 0%N) []) invalid_handle = false) as ->; [|done].
  unfold pool_alive. cbn [gens].
  rewrite (proj2 (lookup_ge_None (replicate (S k) 0%N) (N.to_nat (h_id invalid_handle)))); [done|].
  rewrite replicate_length. unfold below_wrap in Hw. unfold invalid_handle, w32. cbn [h_id]. lia.
Qed.

Lemma frugal_gone k : below_wrap (2 * k) → frugal U 1 0 k k [gone k] [sreg_init].
Proof.
  induction k as [|k IH]; intros Hw; [exact (Frugal0 U 1 0 1)|].
  refine (FrugalS U 1 0 k k [gone k] [sreg_init] (At 0 (OClone invalid_handle)) _ (Throw EntityNotFound) _ (IH ltac:(unfold below_wrap in *; lia)) _ (clone_gone k Hw) _ _ _).
  - exists sreg_init. done.
  - exists sreg_init, sreg_init. split; [done|]. split; [|done]. cbn [rnext sreg_init sr_world]. rewrite lookup_empty. split; [|done]. exists EntityNotFound. split; [done|].
    split; [by intros ?%elem_of_nil|]. split; [|by left]. intros (Hx & _). by apply elem_of_nil in Hx.
  - constructor; [|done]. intros h m c Hm. cbn in Hm. by rewrite lookup_empty in Hm.
  - intros s [= <-]. cbn. lia.
Qed.

Lemma create_handle args r r' h : rg_create U args r = (r', Ok h) → (rg_allocate r).2 = Ok h.
Proof.
  unfold rg_create, bind. destruct (rg_allocate r) as [r1 [x|e|]]; [|done|done]. destruct (rg_ensure_list U args.*1 r1) as [r2 [a|e|]]; [|done|done].
  destruct (on_arch (Some a) _ r2) as [r3 [q|e|]]; [|done|done]. destruct (rg_set_location _ _ r3) as [r4 [[]|e|]]; [|done|done]. by intros [= _ <-].
Qed.

(** After [k] failed calls of clone on an empty registry, the only entity that was ever made has the id [k]. *)
Theorem C99_refuted k : below_wrap (2 * S k) → ∃ rs ss s h, frugal U 1 0 k (S k) rs ss ∧ ss !! 0 = Some s ∧
  sr_issued s = [h] ∧ sr_dead s = [] ∧ is_Some (sr_world s !! h) ∧ h_id h = N.of_nat k.
Proof.
  intros Hw. pose proof (frugal_gone k ltac:(unfold below_wrap in *; lia)) as Hf.
  destruct (run_sop U (At 0 (OCreate [])) [gone k]) as [rs' o] eqn:Hrun.
  assert (spermitted U [sreg_init] (At 0 (OCreate []))) as Hper.
  { exists sreg_init. split; [done|]. split; [done|]. split; [constructor|apply not_elem_of_nil]. }
  destruct (reach_step U HU _ _ _ _ _ _ (frugal_reach U _ _ _ _ _ _ Hf) Hw Hper Hrun) as [(ss' & Hn & Hre & _)|[_ (r & s & _ & _ & [])]].
  pose proof Hn as (s0 & s' & [= <-] & [(h & Hh & Eo & Es)|(_ & Hg & _)] & ->); [|by vm_compute in Hg]. subst o s'.
  exists rs', [with_world (issue sreg_init h) (<[h := list_to_map []]> ∅)], (with_world (issue sreg_init h) (<[h := list_to_map []]> ∅)), h.
  split.
  - refine (FrugalS U 1 0 k k _ _ _ _ (Ok (RHandle h)) _ Hf Hper Hrun Hn _ _); [|intros s [= <-]; cbn; done].
    pose proof (reach_sys U HU _ _ _ Hre Hw) as Hsys. by eapply sys_agrees.
  - split; [done|]. split; [done|]. split; [done|]. split; [exists ∅; cbn; by rewrite lookup_insert|].
    cbn [run_sop] in Hrun. unfold on_reg in Hrun. cbn [lookup list_lookup run_rop] in Hrun. unfold mapM in Hrun.
    destruct (rg_create U [] (gone k)) as [r1 [x|e|]] eqn:Ec; [|done|done]. injection Hrun as <- Ex. subst x. apply create_handle in Ec. by injection Ec as <-.
Qed.
End reuse.

(** * Examples *)
(** A program that checks the handles in use. *)
Fixpoint fprog (K i : nat) (ops : list sop) (L : nat) (rs : list registry) (ss : list sreg) : option (nat * list registry * list sreg) :=
  match ops with
  | [] => Some (L, rs, ss)
  | op :: ops =>
      if spermitted_b U0 ss op && snot_view op then
        let '(rs', o) := run_sop U0 op rs in
        if is_ub o then None else
        let ss' := sstep ss op o in
        if (match ss' !! i with Some s => bool_decide (length (in_use s) ≤ K) | None => true end) then fprog K i ops (if loses i op o then S L else L) rs' ss'
        else None
      else None
  end.
Lemma fprog_frugal K i ops : ∀ L n rs ss L' rs' ss', frugal U0 K i L n rs ss → below_wrap (2 * (length ops + n)) →
  fprog K i ops L rs ss = Some (L', rs', ss') → frugal U0 K i L' (length ops + n) rs' ss'.
Proof.
  induction ops as [|op ops IH]; intros L n rs ss L' rs' ss' Hr Hbw E; cbn [fprog] in E.
  - injection E as <- <- <-. done.
  - destruct (spermitted_b U0 ss op && snot_view op) eqn:Hp; [|done]. apply andb_true_iff in Hp as [Hp%spermitted_ok Hv].
    destruct (run_sop U0 op rs) as [rs1 o] eqn:Hrun. cbn [length] in *. destruct (is_ub o) eqn:Hub; [done|].
    replace (S (length ops) + n) with (length ops + S n) in * by lia.
    destruct (reach_step U0 U0_wf _ _ _ _ _ _ (frugal_reach U0 _ _ _ _ _ _ Hr) ltac:(unfold below_wrap in *; lia) Hp Hrun) as [(ss1 & Hn & Hr1 & _)|[-> _]]; [|done].
    rewrite <- (sstep_ok' U0 _ _ _ _ Hv Hn) in E. destruct (match ss1 !! i with Some s => _ | None => true end) eqn:Hk; [|done].
    refine (IH _ (S n) rs1 ss1 L' rs' ss' _ Hbw E). refine (FrugalS U0 K i L n rs ss op rs1 o ss1 Hr Hp Hrun Hn _ _).
    + by apply (sys_agrees U0 U0_wf (2 * S n)), (reach_sys U0 U0_wf _ _ _ Hr1); unfold below_wrap in *; lia.
    + intros s Hs. rewrite Hs in Hk. by apply bool_decide_eq_true in Hk.
Qed.

(** Registry 0 makes seven handles, but never has more than two in use: entities are destroyed and moved away, and a
    reservation takes the id of a destroyed entity. *)
Definition ex_busy : list sop :=
  [At 0 (OCreate [(1%N, Val 10)]); At 0 (OCreate [(2%N, Val 20)]); At 0 (ODestroy (Handle 0 0)); At 0 (OClone (Handle 1 0));
   Move 0 (Handle 1 0) 1; At 0 (OCreate [(1%N, Val 11)]); At 0 (ODestroy (Handle 0 1)); At 0 OReserve; At 0 OSync;
   At 0 (OCloneInto (Handle 1 1) (Handle 0 2)); At 0 (ODestroy (Handle 1 1)); At 0 (OCreate []); At 0 (ODestroy (Handle 1 2)); Copy 1 (Handle 0 0) 0].
Example ex_C99_busy : match fprog 2 0 ex_busy 0 [rg_init; rg_init] [sreg_init; sreg_init] with
  | Some (L, _, ss) => (L, sr_issued <$> (ss !! 0)) | None => (100, None) end =
  (0, Some [Handle 1 3; Handle 1 2; Handle 0 2; Handle 1 1; Handle 0 1; Handle 1 0; Handle 0 0]).
Proof. by vm_compute. Qed.
Example ex_C99_unfailing : ∃ rs ss s, frugal U0 2 0 0 14 rs ss ∧ below_wrap (2 * 14) ∧ ss !! 0 = Some s ∧ Handle 1 3 ∈ sr_issued s.
Proof.
  pose proof ex_C99_busy as Eb. destruct (fprog 2 0 ex_busy 0 [rg_init; rg_init] [sreg_init; sreg_init]) as [[[L rs] ss]|] eqn:E; [|done].
  injection Eb as -> Es. pose proof (fprog_frugal 2 0 ex_busy 0 0 _ _ _ _ _ (Frugal0 U0 2 0 2) ltac:(by vm_compute) E) as Hf.
  destruct (ss !! 0) as [s|] eqn:Es0; [|done]. injection Es as Es. exists rs, ss, s. split; [exact Hf|]. split; [by vm_compute|]. split; [done|]. rewrite Es. left.
Qed.
(** The same with two failed calls: clone of a destroyed entity, and create with components too large for a chunk. *)
Definition ex_failing : list sop :=
  [At 0 (OCreate [(1%N, Val 10)]); At 0 (ODestroy (Handle 0 0)); At 0 (OClone (Handle 0 0)); At 0 (OCreate [(7%N, Val 1)]); At 0 (OCreate [(1%N, Val 1)])].
Example ex_C99_failing : match fprog 1 0 ex_failing 0 [rg_init] [sreg_init] with
  | Some (L, _, ss) => (L, sr_issued <$> (ss !! 0)) | None => (100, None) end = (2, Some [Handle 2 0; Handle 0 0]).
Proof. by vm_compute. Qed.
Example ex_C99_refuted := C99_refuted U0 U0_wf 1000 ltac:(by vm_compute).

(** The pool, with two threads inside reserve at the same time. *)
Example ex_C99_pool : ∃ p, few 2 6 (Hist p [Handle 1 0; Handle 0 1; Handle 0 0] [Handle 0 0] [Handle 1 0; Handle 0 1] []).
Proof.
  eexists. eapply FewS; [eapply FewS; [eapply FewS; [eapply FewS; [eapply FewS; [eapply FewS; [apply Few0| |]| |]| |]| |]| |]| |].
  - apply HCreate. reflexivity.
  - vm_compute; lia.
  - apply (HRecycle _ _ _ (Handle 0 0)). set_solver.
  - vm_compute; lia.
  - eapply (HReserveEnter _ _ _ _ _ 0); [apply not_elem_of_nil|reflexivity].
  - vm_compute; lia.
  - eapply (HReserveEnter _ _ _ _ _ 1); [set_solver|reflexivity].
  - vm_compute; lia.
  - apply (HReserveLeave _ _ _ _ [(1, 0%Z)] [] 0 1%Z). reflexivity.
  - vm_compute; lia.
  - apply (HReserveLeave _ _ _ _ [] [] 1 0%Z). reflexivity.
  - vm_compute; lia.
Qed.

Print Assumptions C99_pool_partial.
Print Assumptions C99_ids_partial.
Print Assumptions C99_unfailing_partial.
Print Assumptions C99_refuted.
