(** C60: par_each. *)
From Verif Require Import Base Bits Layout PropLayout HandlePool HandleSpec HandlePoolProofs SparseMap SparseMapProofs
  HashTable HashTableProofs HashTableMap Bitset BitsetProofs ComponentSet ComponentSetProofs
  Chunk ChunkProofs Archetype ArchetypeProofs Registry RegistryStore RegistryProofs View ViewProofs RegSpec RegSpecProofs
  RegObs RegRun PropRegistry PropView ParallelFor PropParallelFor ParEach ParEachProofs.

Section props.
Context (U : universe).
Hypothesis HU : u_wf U.

Lemma step_none rq f t : pe_step U rq f t = None → t = PTask [] None.
Proof. destruct t as [[|c todo] [[[c' ps] e]|]]; done. Qed.

Lemma each_runs n r s rq f : reached U n r s → below_wrap (2 * S n) → rq ≠ [] → VReq (u_ent U) true ∉ rq → sr_failed s = false →
  ∃ r1 log1, rg_each U rq f r = (r1, Ok log1).
Proof. intros Hr Hbw Hne Hent Hf. destruct (C15_each U HU n r s rq f Hr Hbw Hne Hent Hf) as (r1 & es & E & _). eauto. Qed.

(** However the steps of the tasks interleave, no step is undefined, there is a next step until all tasks have
    returned, the number of steps is bounded, and at the end the registry is the one that each leaves; the
    calls are those of each, in some order. *)
Theorem C60_as_each n r s rq f num_workers : reached U n r s → below_wrap (2 * S n) → rq ≠ [] → VReq (u_ent U) true ∉ rq →
  sr_failed s = false → 0 < num_workers →
  ∃ ts bound r1 log1, pe_start U rq num_workers r = (r, Ok ts) ∧ rg_each U rq (λ _, f) r = (r1, Ok log1) ∧
    (∀ k c, nsteps (pe_run U rq f) k (PConf ts r []) c → k ≤ bound) ∧
    ∀ c, rtc (pe_run U rq f) (PConf ts r []) c →
      (∀ (i : nat) t m, pf_tasks c !! i = Some t → pe_step U rq f t = Some m → ∃ r' x, m (pf_reg c) = (r', Ok x)) ∧
      (pe_done c ∨ ∃ c', pe_run U rq f c c') ∧
      (pe_done c → pf_reg c = r1 ∧ pf_log c ≡ₚ log1).
Proof.
  intros Hr Hbw Hne Hent Hf Hnw. destruct (each_runs n r s rq (λ _, f) Hr Hbw Hne Hent Hf) as (r1 & log1 & E).
  destruct (reached_ri U HU _ _ _ Hr (bw_half _ Hbw)) as (iss & hp & [_ H _]).
  edestruct (par_each_spec U HU rq f) as (ts & k & Es & Hb & Hrun); [done|done|exact H|exact Hnw|exact E|].
  exists ts, k, r1, log1. split; [done|]. split; [done|]. split; [intros j c; apply Hb|]. intros c Hc.
  destruct (Hrun c Hc) as (Hok & Hd & _). split; [done|]. split; [|done].
  destruct (decide (Exists (λ t, is_Some (pe_step U rq f t)) (pf_tasks c))) as [Hex|Hall].
  - right. apply Exists_exists in Hex as (t & Ht & [m Em]). apply elem_of_list_lookup in Ht as [i Hi].
    destruct (Hok i t m Hi Em) as (r' & [t' l] & Er). eexists. by eapply PeRun.
  - left. apply Forall_forall. intros t Ht. apply (step_none rq f). apply eq_None_not_Some. intros Hs.
    apply Hall, Exists_exists. eauto.
Qed.

(** What the tasks did, in terms of the entities: the callback was called once with every matching entity, its
    assignments took place, and nothing else changed. *)
Theorem C60_par_each n r s rq f num_workers ts c : reached U n r s → below_wrap (2 * S n) → rq ≠ [] →
  VReq (u_ent U) true ∉ rq → sr_failed s = false → 0 < num_workers →
  (pe_start U rq num_workers r).2 = Ok ts → rtc (pe_run U rq f) (PConf ts r []) c → pe_done c →
  ∃ es, pf_log c ≡ₚ args_of U rq <$> es ∧ enumerates U rq (sr_world s) es ∧
    (∀ h m x, (h, m) ∈ es → x ≠ u_ent U →
       (rg_get h x (pf_reg c)).2 =
       match m !! x with
       | None => Throw ComponentNotFound
       | Some v => Ok (CVal match f (args_of U rq (h, m)) x with
                            | Some v' => if decide (VReq x true ∈ rq) then v' else v
                            | None => v
                            end)
       end) ∧
    (∀ g, g ∈ sr_issued s → g ∉ sr_pending s → g ∉ es.*1 → same_obs U r (pf_reg c) g) ∧
    (∀ g cs, g ∈ sr_issued s → g ∉ sr_pending s → (rg_has g cs (pf_reg c)).2 = (rg_has g cs r).2) ∧
    rg_size (pf_reg c) = rg_size r.
Proof.
  intros Hr Hbw Hne Hent Hf Hnw Es Hc Hd.
  destruct (C60_as_each n r s rq f num_workers Hr Hbw Hne Hent Hf Hnw) as (ts' & k & r1 & log1 & Es' & E & _ & Hrun).
  rewrite Es' in Es. injection Es as ->. destruct (Hrun c Hc) as (_ & _ & Hfin). destruct (Hfin Hd) as [-> Hlog].
  destruct (C15_each U HU n r s rq (λ _, f) Hr Hbw Hne Hent Hf) as (r1' & es & E1 & He & Hget & Hother & Hhas & Hsz).
  rewrite E in E1. injection E1 as <- ->. exists es. split; [done|]. split; [done|]. split; [|done].
  intros h m x Hin Hx. apply elem_of_list_lookup in Hin as [j Hj]. by apply (Hget j).
Qed.

(** At no time two tasks are in the same chunk, so the callbacks that run at the same time share no object. *)
Theorem C60_no_shared_chunk n r s rq f num_workers ts c (i j : nat) todo todo' k k' ps ps' e e' :
  reached U n r s → below_wrap (2 * S n) → rq ≠ [] → VReq (u_ent U) true ∉ rq → sr_failed s = false → 0 < num_workers →
  (pe_start U rq num_workers r).2 = Ok ts → rtc (pe_run U rq f) (PConf ts r []) c →
  pf_tasks c !! i = Some (PTask todo (Some (k, ps, e))) → pf_tasks c !! j = Some (PTask todo' (Some (k', ps', e'))) → i ≠ j →
  pc_arch k ≠ pc_arch k' ∨ pc_index k ≠ pc_index k'.
Proof.
  intros Hr Hbw Hne Hent Hf Hnw Es Hc Hi Hj Hij.
  destruct (each_runs n r s rq (λ _, f) Hr Hbw Hne Hent Hf) as (r1 & log1 & E).
  destruct (reached_ri U HU _ _ _ Hr (bw_half _ Hbw)) as (iss & hp & [_ H _]).
  edestruct (par_each_spec U HU rq f) as (ts' & b & Es' & _ & Hrun); [done|done|exact H|exact Hnw|exact E|].
  rewrite Es' in Es. injection Es as ->. destruct (Hrun c Hc) as (_ & _ & Hnd).
  destruct (decide (pc_id k = pc_id k')) as [Eid|Nid].
  2:{ unfold pc_id in Nid. destruct (decide (pc_arch k = pc_arch k')); [right|by left]. congruence. }
  exfalso.
  assert (∀ (l : list ptask) (i j : nat) t t' x y, l !! i = Some t → l !! j = Some t' → i < j → x ∈ tchunks t → y ∈ tchunks t' →
    pc_id x = pc_id y → NoDup (pc_id <$> concat (tchunks <$> l)) → False) as Hlt.
  { clear. intros l i j t t' x y Hi Hj Hlt Hx Hy Exy Hnd. rewrite <- (take_drop_middle l i t Hi), fmap_app, fmap_cons, concat_app in Hnd.
    cbn [concat] in Hnd. rewrite !fmap_app in Hnd. apply NoDup_app in Hnd as (_ & _ & Hnd). apply NoDup_app in Hnd as (_ & Hnd & _).
    apply (Hnd (pc_id x)); [by apply elem_of_list_fmap_1|]. rewrite Exy. apply elem_of_list_fmap_1.
    apply elem_of_list_In, in_concat. exists (tchunks t'). rewrite <- !elem_of_list_In. split; [|done]. apply elem_of_list_fmap_1.
    apply elem_of_list_lookup. exists (j - S i). rewrite lookup_drop. rewrite <- Hj. f_equal. lia. }
  destruct (decide (i < j)).
  - eapply (Hlt _ i j _ _ k k' Hi Hj); [done|unfold tchunks; cbn; left|unfold tchunks; cbn; left|done|done].
  - eapply (Hlt _ j i _ _ k' k Hj Hi); [lia|unfold tchunks; cbn; left|unfold tchunks; cbn; left|done|done].
Qed.
End props.

(** * Examples *)

(** The steps of the tasks in a given order. *)
Fixpoint pe_play (U : universe) (rq : list vreq) (f : pcallback) (sched : list nat) (c : pconf) : option pconf :=
  match sched with
  | [] => Some c
  | i :: sched =>
      t ← pf_tasks c !! i; m ← pe_step U rq f t;
      match m (pf_reg c) with
      | (r', Ok (t', l)) => pe_play U rq f sched (PConf (<[i := t']> (pf_tasks c)) r' (pf_log c ++ l))
      | _ => None
      end
  end.

Lemma pe_play_run U rq f sched : ∀ c c', pe_play U rq f sched c = Some c' → rtc (pe_run U rq f) c c'.
Proof.
  induction sched as [|i sched IH]; intros c c' E; [injection E as <-; constructor|]. cbn in E.
  destruct (pf_tasks c !! i) as [t|] eqn:Hi; [|done]. cbn in E. destruct (pe_step U rq f t) as [m|] eqn:Hm; [|done]. cbn in E.
  destruct (m (pf_reg c)) as [r' [[t' l]|?|]] eqn:Er; [|done|done]. eapply rtc_l; [by eapply PeRun|]. by apply IH.
Qed.

(** A callback that sets component 1 to component 2 plus one. *)
Definition succ2 : pcallback := λ xs c,
  match xs with [_; CVal (Val v)] => if decide (c = 1%N) then Some (Val (v + 1)) else None | _ => None end.
Definition ex_rq : list vreq := [VReq 1 true; VReq 2 false].

Definition ex_ts : list ptask := match (pe_start U0 ex_rq 2 r0).2 with Ok ts => ts | _ => [] end.
Example ex_C60_start : (pe_start U0 ex_rq 2 r0).2 = Ok ex_ts ∧ length ex_ts = 2 ∧ (length ∘ pt_todo <$> ex_ts) = [1; 1].
Proof. by vm_compute. Qed.

Definition ex_get (r : registry) : list (outcome cell) :=
  [(rg_get e0 1 r).2; (rg_get e0 2 r).2; (rg_get e2 1 r).2; (rg_get e2 2 r).2].

(** Both tasks are in their chunks when the second one calls first. *)
Example ex_C60_run : ∃ c, rtc (pe_run U0 ex_rq succ2) (PConf ex_ts r0 []) c ∧ pe_done c ∧
  ex_get (pf_reg c) = [Ok (CVal (Val 21)); Ok (CVal (Val 20)); Ok (CVal (Val 23)); Ok (CVal (Val 22))].
Proof.
  destruct (pe_play U0 ex_rq succ2 [0; 1; 1; 0; 0; 1] (PConf ex_ts r0 [])) as [c|] eqn:E; [|by vm_compute in E].
  exists c. split; [by eapply pe_play_run|]. vm_compute in E. injection E as <-. split; [by repeat constructor|by vm_compute].
Qed.

Example ex_C60_hyps : VReq (u_ent U0) true ∉ ex_rq ∧ ex_rq ≠ [] ∧ sr_failed s0 = false.
Proof. split; [|done]. apply (bool_decide_unpack _). by vm_compute. Qed.
Example ex_C60 := C60_par_each U0 U0_wf 6 r0 s0 ex_rq succ2 2 ex_ts.
Example ex_C60_both : ∃ c t t', rtc (pe_run U0 ex_rq succ2) (PConf ex_ts r0 []) c ∧
  pf_tasks c = [t; t'] ∧ pt_cur t ≠ None ∧ pt_cur t' ≠ None.
Proof.
  destruct (pe_play U0 ex_rq succ2 [0; 1] (PConf ex_ts r0 [])) as [c|] eqn:E; [|by vm_compute in E].
  exists c. apply pe_play_run in E as E'. vm_compute in E. injection E as <-. do 2 eexists. split; [exact E'|]. done.
Qed.

Print Assumptions C60_as_each.
Print Assumptions C60_par_each.
Print Assumptions C60_no_shared_chunk.
