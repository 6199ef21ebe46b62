(** C77: calls through entity_ref end the program, or do not. *)
From Verif Require Import Base Bits Layout PropLayout HandlePool HandleSpec HandlePoolProofs SparseMap SparseMapProofs
  HashTable HashTableProofs HashTableMap Bitset BitsetProofs ComponentSet ComponentSetProofs
  Chunk ChunkProofs Archetype ArchetypeProofs Registry RegistryStore RegistryProofs View ViewProofs RegSpec RegSpecProofs RegObs RegRun EntityRef EntityRefProofs PropRegistry.

Section props.
Context (U : universe).
Hypothesis HU : u_wf U.

(** entity_ref::has returns for entities of the registry, and terminates the program for every other handle: destroyed,
    reserved and not filled yet, or of another registry. *)
Theorem C77_has n r s h cs : reached U n r s → below_wrap (2 * n) →
  match sr_world s !! h with
  | Some m => ∃ b, er_has h cs r = (r, TDone (Ok b)) ∧ (b = true ↔ ∀ c, c ∈ cs → is_Some (m !! c))
  | None => (er_has h cs r).2 = TTerminated
  end.
Proof.
  intros Hr Hbw. destruct (reached_ri U HU _ _ _ Hr Hbw) as (iss & hp & Hri). pose proof Hri as [_ H _]. unfold er_has, noexcept.
  destruct (sr_world s !! h) as [m|] eqn:Hm.
  - rewrite (has_spec U _ _ _ _ _ _ _ _ _ _ cs H Hm). eexists. split; [done|]. rewrite bool_decide_eq_true, Forall_forall. done.
  - destruct (out_specs U _ _ _ _ _ _ _ _ h H Hm) as (_ & _ & _ & _ & _ & Hh & _). by rewrite Hh.
Qed.

(** entity_ref::archetype gives the archetype of exactly the components of the entity, and terminates for every other handle. *)
Theorem C77_archetype n r s h : reached U n r s → below_wrap (2 * n) →
  match sr_world s !! h with
  | Some m => ∃ ids, er_archetype h r = (r, TDone (Ok ids)) ∧ ∀ c, bs_test ids c = true ↔ is_Some (m !! c)
  | None => (er_archetype h r).2 = TTerminated
  end.
Proof.
  intros Hr Hbw. destruct (reached_ri U HU _ _ _ Hr Hbw) as (iss & hp & Hri). pose proof Hri as [_ H _]. unfold er_archetype, noexcept.
  destruct (sr_world s !! h) as [m|] eqn:Hm.
  - destruct (loc_in U H h m Hm) as (a & p & cs & rowss & rows & El & Ha & Hp & Hrows & Hf & Hl).
    destruct (st_arch U _ _ _ _ _ (rv_st _ _ _ _ _ _ _ _ _ H) Ha) as (ar & Har & Hrep). cbn [fst snd] in Hrep.
    rewrite (bind_ok _ _ _ _ _ El). cbn [loc_of lc_arch fst]. rewrite (bind_ok _ _ _ _ _ (rg_arch_run _ _ _ Har)). unfold ret.
    eexists. split; [done|]. intros c. rewrite <- (full_elem _ _ _ c Hf). pose proof (ar_contains_spec U _ _ _ _ c Hrep) as E. unfold ar_contains, ms_contains in E. rewrite E. apply bool_decide_eq_true.
  - pose proof (loc_out U H h Hm) as E. by rewrite (bind_throw _ _ _ _ _ E).
Qed.

(** visit calls the callback once for every component of the entity, with its value; what the callback assigns is what set
    calls would leave; the program is terminated exactly if a call throws.  On other handles visit throws. *)
Theorem C77_visit n r s h cb : reached U n r s →
  match sr_world s !! h with
  | Some m => below_wrap (2 * (n + size m)) →
      ∃ l, NoDup l.*1 ∧ (∀ c v, (c, v) ∈ l ↔ m !! c = Some v) ∧
      match visit_writes cb [] l with
      | None => (er_visit h cb r).2 = TTerminated
      | Some ws => ∃ r', er_visit h cb r = (r', TDone (Ok ((λ cv, (cv.1, CVal cv.2)) <$> l))) ∧
          reached U (n + length ws) r' (with_world s (<[h := list_to_map ws ∪ m]> (sr_world s)))
      end
  | None => below_wrap (2 * n) → ∃ e, er_visit h cb r = (r, TDone (Throw e)) ∧ (e = EntityNotFound ∨ e = OutOfRange) ∧ (h ∈ sr_dead s → e = EntityNotFound)
  end.
Proof.
  intros Hr. destruct (sr_world s !! h) as [m|] eqn:Hm; intros Hbw; [by apply (visit_there U HU)|].
  destruct (reached_ri U HU _ _ _ Hr Hbw) as (iss & hp & Hri). pose proof Hri as [_ H _].
  pose proof (loc_out U H h Hm) as E. unfold er_visit. rewrite E. eexists. split; [done|]. split; [destruct (rg_alive r h); auto|].
  intros Hd. by rewrite (alive_dead U H h Hd).
Qed.

(** A callback that does not throw never ends the program, and one that throws always does. *)
Corollary C77_visit_calm n r s h m cb : reached U n r s → below_wrap (2 * (n + size m)) → sr_world s !! h = Some m →
  (∀ log c x e, cb log c x ≠ VRaise e) → (er_visit h cb r).2 ≠ TTerminated.
Proof.
  intros Hr Hbw Hm Hcb. pose proof (C77_visit n r s h cb Hr) as H. rewrite Hm in H. destruct (H Hbw) as (l & _ & _ & Hl).
  assert (∀ log, visit_writes cb log l ≠ None) as Hn.
  { clear -Hcb. induction l as [|[c v] l IH]; intros log; [done|]. cbn [visit_writes]. specialize (Hcb log c (CVal v)). destruct (cb log c (CVal v)) as [|v'|e]; [apply IH| |by destruct (Hcb e)].
    intros E%fmap_None. by apply IH in E. }
  destruct (visit_writes cb [] l) eqn:E; [|by apply Hn in E]. by destruct Hl as (r' & -> & _).
Qed.

(** Hence the claim is false: has on a handle that was destroyed, in every registry, and a callback that throws, on every
    entity with a component. *)
Theorem C77_has_refuted n r s h cs : reached U n r s → below_wrap (2 * n) → h ∈ sr_dead s → (er_has h cs r).2 = TTerminated ∧ (er_archetype h r).2 = TTerminated.
Proof.
  intros Hr Hbw Hd. assert (sr_world s !! h = None) as Hm.
  { destruct (reached_ri U HU _ _ _ Hr Hbw) as (iss & hp & Hri). pose proof Hri as [_ H _]. destruct (sr_world s !! h) eqn:E; [|done].
    destruct (rv_live _ _ _ _ _ _ _ _ _ H h) as (_ & Hx & _); [by eauto|]. by destruct Hx. }
  pose proof (C77_has n r s h cs Hr Hbw) as H1. pose proof (C77_archetype n r s h Hr Hbw) as H2. rewrite Hm in H1, H2. done.
Qed.
Theorem C77_visit_refuted n r s h m e : reached U n r s → below_wrap (2 * (n + size m)) → sr_world s !! h = Some m → m ≠ ∅ →
  (er_visit h (λ _ _ _, VRaise e) r).2 = TTerminated.
Proof.
  intros Hr Hbw Hm Hne. pose proof (C77_visit n r s h (λ _ _ _, VRaise e) Hr) as H. rewrite Hm in H. destruct (H Hbw) as (l & _ & Hl & H').
  destruct l as [|[c v] l]; [|done]. apply map_choose in Hne as (c & v & Hc). by apply Hl, elem_of_nil in Hc.
Qed.
End props.

(** * Examples *)
(** The callback assigns 7 to component 2. *)
Definition cb77 : visitor := λ _ c _, if decide (c = 2%N) then VWrite (Val 7) else VKeep.
Example ex_C77 : ((er_has e0 [1%N; 3%N] r0).2, (er_has e0 [4%N] r0).2, (er_has e1 [1%N] r0).2, (er_archetype e1 r0).2) =
  (TDone (Ok true), TDone (Ok false), TTerminated, TTerminated).
Proof. by vm_compute. Qed.
Example ex_C77_visit : ((er_visit e0 cb77 r0).2, (rg_get e0 2%N (er_visit e0 cb77 r0).1).2, (er_visit e1 cb77 r0).2,
    (er_visit e0 (λ log _ _, if decide (length log = 2) then VRaise CtorThrew else VKeep) r0).2) =
  (TDone (Ok [(1%N, CVal (Val 10)); (2%N, CVal (Val 20)); (3%N, CVal (Val 30))]), Ok (CVal (Val 7)), TDone (Throw EntityNotFound), TTerminated).
Proof. by vm_compute. Qed.
Example ex_C77_there := C77_visit U0 U0_wf 6 r0 s0 e0 cb77 ex_reached.
Example ex_C77_calm := C77_visit_calm U0 U0_wf 6 r0 s0 e0 m0 cb77 ex_reached (ltac:(by vm_compute)) ex_world.
Example ex_C77_dead := C77_has_refuted U0 U0_wf 6 r0 s0 e1 [1%N] ex_reached (bw_half _ bw7) ex_dead.
Example ex_C77_throws := C77_visit_refuted U0 U0_wf 6 r0 s0 e0 m0 CtorThrew ex_reached (ltac:(by vm_compute)) ex_world.

Print Assumptions C77_has.
Print Assumptions C77_archetype.
Print Assumptions C77_visit.
Print Assumptions C77_visit_calm.
Print Assumptions C77_has_refuted.
Print Assumptions C77_visit_refuted.
