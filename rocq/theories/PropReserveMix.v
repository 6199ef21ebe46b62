(** C04: which creates and destroys between reserve and sync are harmless. *)
From Verif Require Import Base Layout HandlePool HandleSpec HandlePoolProofs SparseMap HashTable Bitset ComponentSet Chunk Archetype Registry View RegSpec RegRun Command PropHandle.
Ltac Zify.zify_post_hook ::= Z.div_mod_to_equations.
Local Open Scope nat_scope.

(** Handles reserved one after another, oldest first. *)
Inductive reserves (p : pool) : list handle → pool → Prop :=
  | rs_nil : reserves p [] p
  | rs_snoc hs p1 h p2 : reserves p hs p1 → pool_reserve p1 = (p2, Ok h) → reserves p (hs ++ [h]) p2.
(** Handles created or reserved one after another, oldest first. *)
Inductive hands_out (p : pool) : list handle → pool → Prop :=
  | ho_nil : hands_out p [] p
  | ho_create hs p1 h p2 : hands_out p hs p1 → pool_create p1 = (p2, Ok h) → hands_out p (hs ++ [h]) p2
  | ho_reserve hs p1 h p2 : hands_out p hs p1 → pool_reserve p1 = (p2, Ok h) → hands_out p (hs ++ [h]) p2.

Lemma quiet_pool n p iss dd : hreach n (Hist p iss dd [] []) → below_wrap n →
  next_id p = N.of_nat (length (gens p)) ∧ cursor p = Z.of_nat (length (free_ids p)) ∧ length (gens p) ≤ n ∧ NoDup (free_ids p).
Proof.
  intros Hr Hbw. pose proof (hinv_reach _ _ Hr Hbw) as H. destruct (hi_fresh _ _ H) as (f & H1 & H2). cbn in *.
  pose proof (hi_quiet _ _ H eq_refl eq_refl) as H3. pose proof (hi_next_le _ _ H) as H4. cbn in *.
  assert (f = 0) as -> by lia. rewrite Nat.add_0_r in H1. split; [done|]. split; [done|]. split; [lia|apply H].
Qed.

(** The pool and the handles after some reservations. *)
Lemma reserves_shape p hs p1 : next_id p = N.of_nat (length (gens p)) → cursor p = Z.of_nat (length (free_ids p)) →
  below_wrap (length (gens p) + length hs) → reserves p hs p1 →
  p1 = Pool (N.of_nat (length (gens p) + (length hs - length (free_ids p)))) (Z.of_nat (length (free_ids p)) - Z.of_nat (length hs)) (gens p) (free_ids p) ∧
  ∀ i h, hs !! i = Some h →
    if decide (i < length (free_ids p)) then free_ids p !! (length (free_ids p) - 1 - i) = Some (h_id h) ∧ gens p !! N.to_nat (h_id h) = Some (h_gen h)
    else h = Handle (N.of_nat (length (gens p) + (i - length (free_ids p)))) 0.
Proof.
  intros Hn Hc Hbw Hr. induction Hr as [|hs p1 h p2 _ IH E].
  - split; [|by intros i h Hi]. destruct p as [k c g f]. cbn in *. subst. f_equal; [f_equal; lia|lia].
  - rewrite app_length in *. cbn [length] in *. destruct IH as [-> IH]; [unfold below_wrap in *; lia|].
    unfold pool_reserve, reserve_ticket, reserve_finish in E. cbn [cursor next_id gens free_ids] in E. unfold below_wrap in Hbw.
    case_decide as Hd.
    + destruct (free_ids p !! _) as [id|] eqn:Ef; [|done]. destruct (gens p !! N.to_nat id) as [g|] eqn:Eg; [|done]. injection E as <- <-.
      split; [f_equal; [f_equal; lia|lia]|]. intros i h [Hi|[Hi1 Hi2]]%lookup_app_Some; [by apply IH|].
      destruct (i - length hs) as [|j] eqn:Ej; [|done]. injection Hi2 as <-. rewrite decide_True by lia. cbn [h_id h_gen]. split; [|done].
      rewrite <- Ef. f_equal. lia.
    + injection E as <- <-. split.
      * f_equal; [|lia]. rewrite inc32_small by (unfold w32; lia). lia.
      * intros i h [Hi|[Hi1 Hi2]]%lookup_app_Some; [by apply IH|].
        destruct (i - length hs) as [|j] eqn:Ej; [|done]. injection Hi2 as <-. rewrite decide_False by lia. do 2 f_equal. lia.
Qed.

(** A create always returns the handle of the first outstanding reservation, if there was a free slot when it was made. *)
Theorem C04_create_taken_refuted n p iss dd h hs p1 : hreach n (Hist p iss dd [] []) → below_wrap (n + S (length hs)) →
  free_ids p ≠ [] → reserves p (h :: hs) p1 → ∃ p2, pool_create p1 = (p2, Ok h).
Proof.
  intros Hr Hbw Hf Hrs. destruct (quiet_pool n p iss dd Hr) as (Hn & Hc & Hl & _); [unfold below_wrap in *; lia|].
  destruct (reserves_shape p (h :: hs) p1 Hn Hc) as [-> Hi]; [unfold below_wrap in *; cbn [length]; lia|done|].
  specialize (Hi 0 h eq_refl). destruct (free_ids p) as [|x fr] eqn:Ef; [done|]. rewrite <- Ef in *.
  rewrite decide_True in Hi by (rewrite Ef; cbn; lia). destruct Hi as [Hi1 Hi2].
  unfold pool_create. cbn [free_ids gens]. rewrite last_lookup. replace (Nat.pred (length (free_ids p))) with (length (free_ids p) - 1 - 0) by lia.
  rewrite Hi1, Hi2. eexists. by destruct h.
Qed.

(** A destroy always spoils the last outstanding reservation: after the sync its handle is returned by the next create, or
    is not alive. *)
Theorem C04_recycle_spoils_refuted n p iss dd h' hs h p1 : hreach n (Hist p iss dd [] []) → below_wrap (n + S (length hs)) →
  h' ∈ iss → h' ∉ dd → reserves p (hs ++ [h]) p1 →
  let p2 := pool_flush (pool_recycle p1 h') in
  (∃ p3, pool_create p2 = (p3, Ok h)) ∨ pool_alive p2 h = false.
Proof.
  intros Hr Hbw Hi Hd Hrs. cbv zeta. assert (below_wrap n) as Hbw' by (unfold below_wrap in *; lia).
  destruct (quiet_pool n p iss dd Hr Hbw') as (Hn & Hc & Hl & Hnd). pose proof (hinv_reach _ _ Hr Hbw') as H.
  pose proof (hi_live _ _ H h' Hi Hd) as Hg. cbn in Hg. specialize (Hg ltac:(by intros ?%elem_of_nil)).
  destruct (reserves_shape p (hs ++ [h]) p1 Hn Hc) as [-> Hsh]; [unfold below_wrap in *; rewrite app_length; cbn [length]; lia|done|].
  specialize (Hsh (length hs) h). rewrite list_lookup_middle in Hsh by done. specialize (Hsh eq_refl).
  rewrite app_length in *. cbn [length] in *. unfold pool_recycle, pool_alive. cbn [gens next_id cursor free_ids]. rewrite Hg, bool_decide_true by done.
  unfold pool_flush. cbn [gens next_id cursor free_ids]. set (f := length (free_ids p)) in *. case_decide as Hdec.
  - left. destruct Hsh as [Hs1 Hs2].
    replace (Z.to_nat (Z.max 0 (Z.of_nat f - Z.of_nat (length hs + 1) + 1))) with (S (f - 1 - length hs)) by lia.
    replace (Z.to_nat (- (Z.of_nat f - Z.of_nat (length hs + 1) + 1))) with 0 by lia. cbn [replicate]. rewrite app_nil_r.
    rewrite take_app_le by lia. rewrite (take_S_r _ _ _ Hs1). unfold pool_create. cbn [free_ids gens]. rewrite last_snoc.
    rewrite list_lookup_alter_ne.
    + rewrite Hs2. eexists. by destruct h.
    + intros E. assert (h_id h' = h_id h) as E' by lia. rewrite E' in Hg. rewrite Hs2 in Hg. injection Hg as Hg.
      pose proof (hi_free_new _ _ H _ _ _ Hs1 Hs2) as Hno. cbn in Hno. apply Hno; [left; lia|]. destruct h as [i g], h' as [i' g']. cbn in *. by subst.
  - right. subst h. cbn [h_id h_gen]. rewrite lookup_ge_None_2; [done|]. rewrite app_length, alter_length, replicate_length. lia.
Qed.

(** Without a free slot creates are harmless: any mixture of creates and reservations gives new handles that are all alive after
    the sync, and leaves the pool as if all of them had been created.  Missing: false with free slots, and for destroys. *)
Theorem C04_no_free_slot_partial n p iss dd hs p1 : hreach n (Hist p iss dd [] []) → below_wrap (n + length hs) →
  free_ids p = [] → hands_out p hs p1 →
  NoDup (hs ++ iss) ∧ (∀ h, h ∈ hs → pool_alive (pool_flush p1) h = true) ∧
  hreach (length hs + n) (Hist (pool_flush p1) (rev hs ++ iss) dd [] []).
Proof.
  intros Hr Hbw Hf Ho. assert (below_wrap n) as Hbw' by (unfold below_wrap in *; lia).
  destruct (quiet_pool n p iss dd Hr Hbw') as (Hn & Hc & Hl & _). rewrite Hf in Hc. cbn in Hc.
  assert (hreach (length hs + n) (Hist (pool_flush p1) (rev hs ++ iss) dd [] []) ∧
    ∃ c r, r + c = length hs ∧ p1 = Pool (N.of_nat (length (gens p) + length hs)) (- Z.of_nat r) (gens p ++ replicate c 0%N) []) as [Hreach _].
  { induction Ho as [|hs p1 h p2 _ IH E|hs p1 h p2 _ IH E].
    - split; [|exists 0, 0; split; [done|]; destruct p as [k c g fr]; cbn in *; subst; by rewrite Nat.add_0_r, app_nil_r].
      assert (pool_flush p = p) as ->; [|done]. destruct p as [k c g fr]. cbn in *. subst. unfold pool_flush. cbn. by rewrite app_nil_r.
    - rewrite app_length in *. cbn [length] in *. destruct IH as (IH & c & r & Hcr & ->); [unfold below_wrap in *; lia|].
      unfold pool_create in E. cbn [free_ids last next_id cursor gens] in E. injection E as <- <-. unfold below_wrap in *.
      rewrite inc32_small by (unfold w32; lia). split.
      + rewrite rev_app_distr. cbn [rev app]. replace (length hs + 1 + n) with (S (length hs + n)) by lia. eapply HRS; [exact IH|].
        apply HCreate. unfold pool_create, pool_flush. cbn [free_ids last next_id cursor gens]. rewrite take_nil. cbn [last].
        rewrite inc32_small by (unfold w32; lia). do 2 f_equal. rewrite Z.opp_involutive, Nat2Z.id, <- !app_assoc. f_equal.
        by rewrite <- replicate_cons_app.
      + exists (S c), r. split; [lia|]. f_equal; [lia|]. rewrite <- app_assoc. f_equal. by rewrite <- replicate_cons_app.
    - rewrite app_length in *. cbn [length] in *. destruct IH as (IH & c & r & Hcr & ->); [unfold below_wrap in *; lia|].
      unfold pool_reserve, reserve_ticket, reserve_finish in E. cbn [free_ids last next_id cursor gens] in E. rewrite decide_False in E by lia.
      injection E as <- <-. unfold below_wrap in *. rewrite inc32_small by (unfold w32; lia). split.
      + rewrite rev_app_distr. cbn [rev app]. replace (length hs + 1 + n) with (S (length hs + n)) by lia. eapply HRS; [exact IH|].
        apply HCreate. unfold pool_create, pool_flush. cbn [free_ids last next_id cursor gens]. rewrite !take_nil. cbn [last].
        rewrite inc32_small by (unfold w32; lia). f_equal. f_equal; [lia|]. rewrite <- !app_assoc. f_equal. f_equal.
        replace (Z.to_nat (- (- Z.of_nat r - 1))) with (S r) by lia. rewrite Z.opp_involutive, Nat2Z.id. by rewrite <- replicate_cons_app.
      + exists c, (S r). split; [lia|]. f_equal; lia. }
  split; [|split; [|done]].
  - assert (NoDup (rev hs ++ iss)) as Hnd. { apply (C01_handles_unique _ _ Hreach). unfold below_wrap in *. lia. }
    assert (hs ++ iss ≡ₚ rev hs ++ iss) as -> by (f_equiv; apply Permutation_rev). done.
  - intros h Hh. apply (C02_alive_exact _ _ h Hreach); cbn; [unfold below_wrap in *; lia| |by intros ?%elem_of_nil|].
    + apply elem_of_app. left. apply elem_of_list_In, (proj1 (in_rev _ _)). by apply elem_of_list_In.
    + pose proof (hinv_reach _ _ Hr Hbw') as H. intros Hdd. destruct (hi_dead _ _ H h Hdd) as [Hin _]. cbn in Hin.
      assert (NoDup (rev hs ++ iss)) as Hnd. { apply (C01_handles_unique _ _ Hreach). unfold below_wrap in *. lia. }
      apply NoDup_app in Hnd as (_ & Hnd & _). apply (Hnd h); [|done]. apply elem_of_list_In, (proj1 (in_rev _ _)). by apply elem_of_list_In.
Qed.

(** Examples: a pool with a free slot and a handle in use, and one without a free slot. *)
Example C04_example_reserves : ∃ n p iss dd h p1, hreach n (Hist p iss dd [] []) ∧ below_wrap (n + 1) ∧ free_ids p ≠ [] ∧
  Handle 1 0 ∈ iss ∧ Handle 1 0 ∉ dd ∧ reserves p [h] p1.
Proof.
  do 4 eexists. exists (Handle 0 1). eexists. split; [exact one_free_one_used_reach|]. split; [done|]. split; [done|]. split; [left|]. split.
  - intros H. apply elem_of_list_singleton in H. discriminate.
  - eapply (rs_snoc _ []); [constructor|reflexivity].
Qed.
Example C04_example_mixed : ∃ p1, hreach 0 (Hist pool_init [] [] [] []) ∧ free_ids pool_init = [] ∧
  hands_out pool_init [Handle 0 0; Handle 1 0; Handle 2 0] p1 ∧ pool_alive p1 (Handle 1 0) = false ∧ pool_alive (pool_flush p1) (Handle 1 0) = true.
Proof.
  exists (Pool 3 (-2) [0%N] []). split; [apply HR0|]. split; [done|]. split; [|split].
  - apply (ho_reserve _ [Handle 0 0; Handle 1 0] (Pool 2 (-1) [0%N] [])); [|reflexivity].
    apply (ho_create _ [Handle 0 0] (Pool 1 (-1) [] [])); [|reflexivity]. eapply (ho_reserve _ []); [constructor|reflexivity].
  - reflexivity.
  - reflexivity.
Qed.


(** * C49: the owner of a registry creates an entity while another system records the creation of one *)

(** One entity is created and destroyed, so that its slot is free. Then a command writer (command.hpp:253-259) creates an
    entity with component value [x2], the owner of the registry creates one with [x3], and the commands are run. *)
Definition mix_up (x1 x2 x3 : val) : M cstate (handle * handle * rres * rres * rres) :=
  let! a := on_regs_of (call_handle U0 (At 0 (OCreate [(1%N, x1)]))) in
  on_regs_of (call_unit U0 (At 0 (ODestroy a))) ;;!
  let! g := cw_create U0 0 0 [(1%N, x2)] in
  let! h := on_regs_of (call_handle U0 (At 0 (OCreate [(1%N, x3)]))) in
  flush U0 0 ;;!
  let! x := on_regs_of (run_sop U0 (At 0 (OGet h 1%N))) in
  let! n := on_regs_of (run_sop U0 (At 0 OSize)) in
  let! v := on_regs_of (run_sop U0 (At 0 (OEach [VReq 0%N false; VReq 1%N false] (λ _ _ _, None)))) in
  ret (g, h, x, n, v).

(** Every call succeeds, but both creations return the same handle, the owner reads the value of the other entity from
    its own one, the registry counts one entity, and a view visits two with that handle. *)
Theorem C49_mix_up_refuted (x1 x2 x3 : val) :
  ∃ h, (mix_up x1 x2 x3 (CState [rg_init; rg_init] [Buffer 1 [] true])).2 =
       Ok (h, h, RCell (CVal x2), RNum 1, RCalls [[CEnt h; CVal x3]; [CEnt h; CVal x2]]).
Proof. exists (Handle 0 1). by vm_compute. Qed.

Print Assumptions C04_create_taken_refuted.
Print Assumptions C04_recycle_spoils_refuted.
Print Assumptions C04_no_free_slot_partial.
Print Assumptions C49_mix_up_refuted.
