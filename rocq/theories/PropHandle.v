(** C01-C04: entity handles. *)
From Verif Require Import Base HandlePool HandleSpec HandlePoolProofs HandleWrap.
Ltac Zify.zify_post_hook ::= Z.div_mod_to_equations.

Lemma issued_nodup n s : hreach n s → below_wrap n → NoDup (hs_issued s).
Proof. intros Hr Hw. by apply (hi_iss_nd _ _ (hinv_reach _ _ Hr Hw)). Qed.

Lemma create_fresh n p iss dd :
  hreach n (Hist p iss dd [] []) → below_wrap (S n) →
  ∃ p' h, pool_create p = (p', Ok h) ∧ h ∉ iss ∧ pool_alive p' h = true.
Proof.
  intros Hr Hw. assert (hinv n (Hist p iss dd [] [])) as Hi.
  { apply hinv_reach; [done|]. unfold below_wrap in *. lia. }
  destruct (pool_create p) as [p' o] eqn:E.
  destruct o as [h|e|].
  - exists p', h. destruct (hinv_create _ _ _ _ _ _ Hi Hw E) as [Hi' Ha].
    split; [done|]. split; [|done].
    pose proof (hi_iss_nd _ _ Hi') as Hnd. simpl in Hnd. by apply NoDup_cons in Hnd as [? _].
  - exfalso. unfold pool_create in E. by repeat case_match.
  - exfalso. by eapply (create_no_ub _ _ p' Hi).
Qed.

Lemma alive_exact n s h :
  hreach n s → below_wrap n → h ∈ hs_issued s → h ∉ hs_pending s →
  pool_alive (hs_pool s) h = true ↔ h ∉ hs_dead s.
Proof.
  intros Hr Hw Hi Hp. pose proof (hinv_reach _ _ Hr Hw) as Hinv. unfold pool_alive. split.
  - intros Ha Hd. destruct (hi_dead _ _ Hinv h Hd) as (_ & g & Hg & Hlt). rewrite Hg in Ha.
    apply bool_decide_eq_true in Ha. lia.
  - intros Hd. rewrite (hi_live _ _ Hinv h Hi Hd Hp). by apply bool_decide_eq_true.
Qed.

Lemma dead_not_alive n s h :
  hreach n s → below_wrap n → h ∈ hs_dead s → pool_alive (hs_pool s) h = false.
Proof.
  intros Hr Hw Hd. pose proof (hinv_reach _ _ Hr Hw) as Hinv. unfold pool_alive.
  destruct (hi_dead _ _ Hinv h Hd) as (_ & g & Hg & Hlt). rewrite Hg.
  apply bool_decide_eq_false. lia.
Qed.

(** Any number of further steps. *)
Inductive hsteps : nat → hist → hist → Prop :=
| HS0 s : hsteps 0 s s
| HSS k s s' s'' : hsteps k s s' → hstep s' s'' → hsteps (S k) s s''.

Lemma hreach_steps n k s s' : hreach n s → hsteps k s s' → hreach (k + n) s'.
Proof. intros Hr. induction 1; [done|]. simpl. eapply HRS; eauto. Qed.

Lemma dead_grows k s s' h : hsteps k s s' → h ∈ hs_dead s → h ∈ hs_dead s'.
Proof. induction 1 as [|k s s' s'' _ IH Hs]; [done|]. intros Hd. specialize (IH Hd). destruct Hs; set_solver. Qed.

Lemma dead_stays_dead n k s s' h :
  hreach n s → hsteps k s s' → below_wrap (k + n) → h ∈ hs_dead s → pool_alive (hs_pool s') h = false.
Proof. intros Hr Hs Hw Hd. eapply dead_not_alive; eauto using hreach_steps, dead_grows. Qed.

Lemma reserve_safe n p iss dd pend ins1 t k ins2 :
  hreach n (Hist p iss dd pend (ins1 ++ (t, k) :: ins2)) → below_wrap (S n) →
  ∃ p' h, reserve_finish k p = (p', Ok h) ∧ h ∉ iss.
Proof.
  intros Hr Hw. assert (hinv n (Hist p iss dd pend (ins1 ++ (t, k) :: ins2))) as Hi.
  { apply hinv_reach; [done|]. unfold below_wrap in *. lia. }
  destruct (reserve_finish k p) as [p' o] eqn:E. destruct o as [h|e|].
  - exists p', h. split; [done|]. pose proof (hinv_leave _ _ _ _ _ _ _ _ _ _ _ Hi Hw E) as Hi'.
    pose proof (hi_iss_nd _ _ Hi') as Hnd. simpl in Hnd. by apply NoDup_cons in Hnd as [? _].
  - exfalso. unfold reserve_finish in E. by repeat case_match.
  - exfalso. eapply (finish_no_ub n _ t k p' Hi); [set_solver|done].
Qed.

Lemma flush_publishes n p iss dd pend h :
  hreach n (Hist p iss dd pend []) → below_wrap (S n) →
  h ∈ iss → h ∉ dd → pool_alive (pool_flush p) h = true.
Proof.
  intros Hr Hw Hi Hd.
  assert (hreach (S n) (Hist (pool_flush p) iss dd [] [])) as Hr' by (eapply HRS; [done|constructor]).
  pose proof (hinv_reach _ _ Hr' Hw) as Hinv. unfold pool_alive.
  pose proof (hi_live _ _ Hinv h) as Hl. cbn [hs_pool hs_issued hs_dead hs_pending] in Hl. rewrite Hl; [|done..|set_solver].
  by apply bool_decide_eq_true.
Qed.

(** C01: no handle is ever handed out twice, and [create] always succeeds with a new, living handle. *)
Theorem C01_handles_unique n s :
  hreach n s → below_wrap n → NoDup (hs_issued s).
Proof. exact (issued_nodup n s). Qed.
Print Assumptions C01_handles_unique.

Theorem C01_create_fresh_and_alive n p iss dd :
  hreach n (Hist p iss dd [] []) → below_wrap (S n) →
  ∃ p' h, pool_create p = (p', Ok h) ∧ h ∉ iss ∧ pool_alive p' h = true.
Proof. exact (create_fresh n p iss dd). Qed.
Print Assumptions C01_create_fresh_and_alive.

(** C02: a recycled handle is dead in every later state; an issued handle that is not waiting for a
    flush is alive exactly until it is recycled. *)
Theorem C02_dead_stays_dead n k s s' h :
  hreach n s → hsteps k s s' → below_wrap (k + n) → h ∈ hs_dead s → pool_alive (hs_pool s') h = false.
Proof. exact (dead_stays_dead n k s s' h). Qed.
Print Assumptions C02_dead_stays_dead.

Theorem C02_alive_exact n s h :
  hreach n s → below_wrap n → h ∈ hs_issued s → h ∉ hs_pending s →
  pool_alive (hs_pool s) h = true ↔ h ∉ hs_dead s.
Proof. exact (alive_exact n s h). Qed.
Print Assumptions C02_alive_exact.

(** The bound of 2^32 operations cannot be dropped: the uint32 generation wraps. *)
Theorem C02_unbounded_refuted :
  ∃ n s h, hreach n s ∧ h ∈ hs_dead s ∧ pool_alive (hs_pool s) h = true.
Proof. exact wrap_revives. Qed.
Print Assumptions C02_unbounded_refuted.

(** C03: in every interleaving of threads inside [reserve] each of them obtains a handle nobody had
    before, and once all have left, [flush] makes every issued, not recycled handle alive. *)
Theorem C03_reserve_distinct n p iss dd pend ins1 t k ins2 :
  hreach n (Hist p iss dd pend (ins1 ++ (t, k) :: ins2)) → below_wrap (S n) →
  ∃ p' h, reserve_finish k p = (p', Ok h) ∧ h ∉ iss.
Proof. exact (reserve_safe n p iss dd pend ins1 t k ins2). Qed.
Print Assumptions C03_reserve_distinct.

Theorem C03_flush_publishes n p iss dd pend h :
  hreach n (Hist p iss dd pend []) → below_wrap (S n) →
  h ∈ iss → h ∉ dd → pool_alive (pool_flush p) h = true.
Proof. exact (flush_publishes n p iss dd pend h). Qed.
Print Assumptions C03_flush_publishes.

(** C04 is false of the code. *)
(** A reachable pool with one free slot: one handle was created and recycled. *)
Lemma one_free_reach :
  hreach 2 (Hist (Pool 1 1 [1%N] [0%N]) [Handle 0 0] [Handle 0 0] [] []).
Proof.
  eapply HRS; [eapply HRS; [apply HR0|]|].
  - apply HCreate. reflexivity.
  - change (Pool 1 1 [1%N] [0%N]) with (pool_recycle (Pool 1 0 [0%N] []) (Handle 0 0)).
    apply HRecycle. left.
Qed.

(** Reserving and then creating before the flush hands out the same handle twice. *)
Theorem C04_reserve_then_create_refuted :
  ∃ n p iss dd h p1 p2, hreach n (Hist p iss dd [] []) ∧
    pool_reserve p = (p1, Ok h) ∧ pool_create p1 = (p2, Ok h).
Proof.
  exists 2, (Pool 1 1 [1%N] [0%N]), [Handle 0 0], [Handle 0 0], (Handle 0 1),
    (Pool 1 0 [1%N] [0%N]), (Pool 1 0 [1%N] []).
  split; [exact one_free_reach|]. split; reflexivity.
Qed.
Print Assumptions C04_reserve_then_create_refuted.

(** A handle created while a reservation is outstanding is not alive. *)
Theorem C04_create_not_alive_refuted :
  ∃ h1 h2 p1 p2, pool_reserve pool_init = (p1, Ok h1) ∧ pool_create p1 = (p2, Ok h2) ∧
    pool_alive p2 h2 = false.
Proof.
  exists (Handle 0 0), (Handle 1 0), (Pool 1 (-1) [] []), (Pool 2 (-1) [0%N] []).
  split; [reflexivity|]. split; reflexivity.
Qed.
Print Assumptions C04_create_not_alive_refuted.

(** A reachable pool with slot 0 free and slot 1 in use. *)
Lemma one_free_one_used_reach :
  hreach 3 (Hist (Pool 2 1 [1%N; 0%N] [0%N]) [Handle 1 0; Handle 0 0] [Handle 0 0] [] []).
Proof.
  eapply HRS; [eapply HRS; [eapply HRS; [apply HR0|]|]|].
  - apply HCreate. reflexivity.
  - apply HCreate. reflexivity.
  - change (Pool 2 1 [1%N; 0%N] [0%N]) with (pool_recycle (Pool 2 0 [0%N; 0%N] []) (Handle 0 0)).
    apply HRecycle. set_solver.
Qed.

(** Recycling between a reservation and the flush makes the flush drop the recycled slot and keep the
    reserved one free, so the next create returns the reserved handle again. *)
Theorem C04_recycle_then_flush_refuted :
  ∃ n p iss dd h h' p1 p2, hreach n (Hist p iss dd [] []) ∧ h' ∈ iss ∧
    pool_reserve p = (p1, Ok h) ∧
    pool_create (pool_flush (pool_recycle p1 h')) = (p2, Ok h).
Proof.
  exists 3, (Pool 2 1 [1%N; 0%N] [0%N]), [Handle 1 0; Handle 0 0], [Handle 0 0], (Handle 0 1), (Handle 1 0),
    (Pool 2 0 [1%N; 0%N] [0%N]), (Pool 2 0 [1%N; 1%N] []).
  split; [exact one_free_one_used_reach|]. split; [set_solver|]. split; reflexivity.
Qed.
Print Assumptions C04_recycle_then_flush_refuted.

(** [alive] also accepts the next, never issued generation of a free slot. *)
Theorem C02_alive_never_issued_refuted :
  ∃ n p iss dd h, hreach n (Hist p iss dd [] []) ∧ h ∉ iss ∧ pool_alive p h = true.
Proof.
  exists 2, (Pool 1 1 [1%N] [0%N]), [Handle 0 0], [Handle 0 0], (Handle 0 1).
  split; [exact one_free_reach|]. split; [set_solver|reflexivity].
Qed.
Print Assumptions C02_alive_never_issued_refuted.

(** The hypotheses are met by a history with reuse and two threads inside reserve at once. *)
Example C03_two_threads :
  ∃ p iss dd pend, hreach 4 (Hist p iss dd pend ([] ++ (7, 0%Z) :: [(3, 1%Z)])) ∧ below_wrap 5 ∧ dd ≠ [].
Proof.
  eexists _, _, _, _. split.
  - simpl. eapply HRS; [eapply HRS; [apply one_free_reach|]|].
    + apply (HReserveEnter _ _ _ _ _ 3); [set_solver|reflexivity].
    + apply HReserveEnter; [set_solver|reflexivity].
  - split; [done|done].
Qed.
