(** C82: the arrays of the work-stealing queue. *)
From Verif Require Import Base WSQueue WSQueueProofs PropWSQueue QueueMem.
Ltac Zify.zify_post_hook ::= Z.div_mod_to_equations.
Local Open Scope Z_scope.

Section props.
Context {A : Type}.
Implicit Types (s : system A).

Lemma copy_cap n i (old new : arr A) : a_cap (copy_loop n i old new) = a_cap new.
Proof. revert i new. induction n as [|n IH]; intros i new; [done|]. cbn [copy_loop]. rewrite IH. by destruct (arr_pop old i). Qed.
Lemma alter_caps (f : arr A → arr A) (k : nat) (l : list (arr A)) : (∀ a, a_cap (f a) = a_cap a) → a_cap <$> alter f k l = a_cap <$> l.
Proof. intros Hf. revert k. induction l as [|a l IH]; intros [|k]; cbn; [done|done|by rewrite Hf|f_equal; apply IH]. Qed.

(** What one step does to the arrays. *)
Lemma step_arrs s s' : sys_step s s' →
  (a_cap <$> q_arrs (s_q s') = a_cap <$> q_arrs (s_q s) ∧ q_cur (s_q s') = q_cur (s_q s)) ∨
  (∃ x b t a, s_owner s = OPushB x b t ∧ q_arrs (s_q s) !! q_cur (s_q s) = Some a ∧ a_cap a - 1 < b - t ∧
     a_cap <$> q_arrs (s_q s') = (a_cap <$> q_arrs (s_q s)) ++ [2 * a_cap a] ∧ q_cur (s_q s') = length (q_arrs (s_q s))).
Proof.
  intros Hs. inversion Hs as [q ts log x|q ts log|q o ts log q' o' e Ho|q o ts log i p q' p' e Hi Ht]; subst; cbn [s_q s_owner]; [by left|by left| |].
  - destruct o as [|x b|x b t|x b a|x b|b a|b a|b t a|b t item|b item]; cbn [owner_step] in Ho.
    + done.
    + simplify_eq. by left.
    + destruct (q_arrs q !! q_cur q) as [a|] eqn:Ea; [|done]. cbn [mbind option_bind] in Ho. case_bool_decide as Hc; simplify_eq; [|by left].
      right. exists x, b, t, a. cbn [q_arrs q_cur]. split_and!; try done. rewrite fmap_app. cbn. unfold arr_grow. by rewrite copy_cap.
    + simplify_eq. left. cbn [q_arrs q_cur]. split; [by apply alter_caps|done].
    + simplify_eq. by left.
    + simplify_eq. by left.
    + simplify_eq. by left.
    + case_bool_decide; [|simplify_eq; by left]. destruct (q_arrs q !! a) as [ar|]; [|done]. cbn in Ho. simplify_eq. by left.
    + case_bool_decide; [|simplify_eq; by left]. case_bool_decide; simplify_eq; by left.
    + simplify_eq. by left.
  - destruct p as [|t|t|t a|t item]; cbn [thief_step] in Ht.
    + simplify_eq. by left.
    + case_bool_decide; simplify_eq; by left.
    + simplify_eq. by left.
    + destruct (q_arrs q !! a) as [ar|]; [|done]. cbn in Ht. simplify_eq. by left.
    + case_bool_decide; simplify_eq; by left.
Qed.

(** The capacities of the arrays: each is twice the one before, and the last one is used. *)
Lemma reach_caps c n s : sys_reach c n s →
  q_cur (s_q s) = (length (q_arrs (s_q s)) - 1)%nat ∧ (0 < length (q_arrs (s_q s)))%nat ∧ ∀ (k : nat) a, q_arrs (s_q s) !! k = Some a → a_cap a = c * 2 ^ Z.of_nat k.
Proof.
  induction 1 as [|s s' Hr (IH1 & IH2 & IH3) Hs].
  - cbn. split_and!; [done|lia|]. intros [|k] a Ha; cbn in Ha; simplify_eq. cbn. lia.
  - assert (∀ k : nat, (a_cap <$> q_arrs (s_q s)) !! k = if decide (k < length (q_arrs (s_q s)))%nat then Some (c * 2 ^ Z.of_nat k) else None) as Hcaps.
    { intros k. rewrite list_lookup_fmap. case_decide as Hk.
      - destruct (lookup_lt_is_Some_2 _ _ Hk) as [a Ha]. rewrite Ha. cbn. f_equal. by apply IH3.
      - by rewrite lookup_ge_None_2 by lia. }
    destruct (step_arrs _ _ Hs) as [[E1 E2]|(x & b & t & a & _ & Ha & _ & E1 & E2)].
    + assert (length (q_arrs (s_q s')) = length (q_arrs (s_q s))) as El by (by rewrite <- (fmap_length a_cap), E1, fmap_length).
      rewrite El, E2. split_and!; [done|done|]. intros k a Ha. assert ((a_cap <$> q_arrs (s_q s')) !! k = Some (a_cap a)) as Hk by (by rewrite list_lookup_fmap, Ha).
      rewrite E1, Hcaps in Hk. case_decide; by simplify_eq.
    + assert (length (q_arrs (s_q s')) = S (length (q_arrs (s_q s)))) as El. { rewrite <- (fmap_length a_cap (q_arrs (s_q s'))), E1, app_length, fmap_length. cbn. lia. }
      rewrite El, E2. split_and!; [lia|lia|]. intros k a' Ha'. assert ((a_cap <$> q_arrs (s_q s')) !! k = Some (a_cap a')) as Hk by (by rewrite list_lookup_fmap, Ha').
      rewrite E1 in Hk. apply IH3 in Ha. rewrite IH1 in Ha.
      destruct (decide (k < length (q_arrs (s_q s)))%nat) as [Hlt|Hge].
      * rewrite lookup_app_l in Hk by (by rewrite fmap_length). rewrite Hcaps in Hk. rewrite decide_True in Hk by done. by simplify_eq.
      * assert (k = length (q_arrs (s_q s))) as ->. { apply lookup_lt_Some in Hk. rewrite app_length, fmap_length in Hk. cbn in Hk. lia. }
        rewrite lookup_app_r in Hk by (by rewrite fmap_length). rewrite fmap_length, Nat.sub_diag in Hk. cbn in Hk. injection Hk as Hk. rewrite <- Hk, Ha.
        replace (Z.of_nat (length (q_arrs (s_q s)))) with (Z.succ (Z.of_nat (length (q_arrs (s_q s)) - 1))) by lia. rewrite Z.pow_succ_r by lia. lia.
Qed.

Lemma mem_sys c n s g : mem_reach c n s g → sys_reach c n s.
Proof. induction 1; [constructor|]. by econstructor. Qed.
Lemma sys_mem c n s : sys_reach c n s → ∃ g, mem_reach c n s g.
Proof. induction 1 as [|s s' _ [g IH] Hs]; [eexists; constructor|]. eexists. by econstructor. Qed.

(** * C82 *)

(** The destructor frees every array that was allocated, and each of them once. *)
Theorem C82_freed c n s g : mem_reach c n s g → wsq_frees (s_q s) g = seq 0 (length (q_arrs (s_q s))).
Proof.
  induction 1 as [|s g s' Hm IH Hs]; [done|]. pose proof (mem_sys _ _ _ _ Hm) as Hr0. destruct (reach_caps _ _ _ Hr0) as (E0 & H0 & _). unfold wsq_frees, garbage_after in *.
  destruct (step_arrs _ _ Hs) as [[E1 E2]|(x & b & t & a & _ & _ & _ & E1 & E2)].
  - assert (length (q_arrs (s_q s')) = length (q_arrs (s_q s))) as El by (by rewrite <- (fmap_length a_cap), E1, fmap_length).
    rewrite bool_decide_true by done. by rewrite E2, El.
  - assert (length (q_arrs (s_q s')) = S (length (q_arrs (s_q s)))) as El. { rewrite <- (fmap_length a_cap (q_arrs (s_q s'))), E1, app_length, fmap_length. cbn. lia. }
    rewrite bool_decide_false by lia. rewrite El, seq_S, <- IH, E2. done.
Qed.

(** An array that an operation that has begun still uses is one of those that the destructor will free: it has not been freed. *)
Theorem C82_in_use c n s g a : pow2Z c → mem_reach c n s g →
  owner_uses (s_owner s) = Some a ∨ (∃ p, p ∈ s_thieves s ∧ thief_uses p = Some a) → a ∈ wsq_frees (s_q s) g.
Proof.
  intros Hc Hm Hu. rewrite (C82_freed c n s g Hm). assert (sys_reach c n s) as Hr by (by eapply mem_sys).
  destruct (sys_inv c n s Hc Hr) as (h & l & pend & ca & (Hcur & _) & Ho & Ht & _). apply elem_of_seq. split; [lia|]. cbn.
  destruct Hu as [Hu|(p & Hp & Hu)].
  - destruct (s_owner s); cbn in Hu, Ho; simplify_eq; destruct_and?; subst; by eapply lookup_lt_Some.
  - rewrite Forall_forall in Ht. apply Ht in Hp. destruct p; cbn in Hu, Hp; simplify_eq. destruct Hp as (_ & ar & Har & _). by eapply lookup_lt_Some.
Qed.

(** The capacity is the first one times a power of two, and the arrays that are kept are together smaller than the current one. *)
Definition room (q : wsq A) (l : list nat) : Z := foldr Z.add 0 ((λ k : nat, match q_arrs q !! k with Some a => a_cap a | None => 0 end) <$> l).
Theorem C82_capacity c n s g : 0 < c → mem_reach c n s g →
  ∃ a, q_arrs (s_q s) !! q_cur (s_q s) = Some a ∧ a_cap a = c * 2 ^ Z.of_nat (length g) ∧ room (s_q s) g = a_cap a - c.
Proof.
  intros Hc Hm. assert (sys_reach c n s) as Hr by (by eapply mem_sys). destruct (reach_caps _ _ _ Hr) as (E0 & H0 & Hk).
  pose proof (C82_freed _ _ _ _ Hm) as Hf. unfold wsq_frees in Hf.
  destruct (lookup_lt_is_Some_2 (q_arrs (s_q s)) (q_cur (s_q s)) ltac:(lia)) as [a Ha].
  assert (length g = q_cur (s_q s)) as Hl. { apply (f_equal length) in Hf. rewrite app_length, seq_length in Hf. cbn in Hf. lia. }
  assert (g = seq 0 (length g)) as Hg.
  { replace (length (q_arrs (s_q s))) with (S (length g)) in Hf by lia. rewrite seq_S in Hf. by apply app_inj_tail in Hf as [Hf _]. }
  exists a. split; [done|]. rewrite Hl. split; [by apply Hk|]. rewrite (Hk _ _ Ha), <- Hl. rewrite Hg at 1. clear Hg.
  assert (length g ≤ length (q_arrs (s_q s)))%nat as Hle by lia. revert Hle. generalize (length g) as m. clear -Hk. intros m.
  induction m as [|m IH]; intros Hm; [cbn; lia|]. unfold room in *. rewrite seq_S, fmap_app, foldr_app. cbn [fmap list_fmap foldr plus].
  destruct (lookup_lt_is_Some_2 (q_arrs (s_q s)) m ltac:(lia)) as [a Ha]. rewrite Ha, (Hk _ _ Ha).
  assert (∀ (xs : list Z) z, foldr Z.add z xs = foldr Z.add 0 xs + z) as Hz. { intros xs z. induction xs as [|x xs IHx]; cbn; [lia|]. rewrite IHx. lia. }
  rewrite Hz, IH by lia. rewrite Nat2Z.inj_succ, Z.pow_succ_r by lia. lia.
Qed.

(** The array is replaced by one of twice the capacity, and only when the queue holds as many items as its array has room for,
    at the moment when the push reads _top. *)
Theorem C82_grows c n s a : pow2Z c → sys_reach c n s → q_arrs (s_q s) !! q_cur (s_q s) = Some a →
  a_cap a = c ∨ ∃ s0 x b l, sys_reach c n s0 ∧ rtc sys_step s0 s ∧ s_owner s0 = OPushA x b ∧ contents (s_q s0) = Some l ∧ a_cap a = 2 * Z.of_nat (length l).
Proof.
  intros Hc Hr Ha. assert (
    (∀ a, q_arrs (s_q s) !! q_cur (s_q s) = Some a → a_cap a = c ∨ ∃ s0 x b l, sys_reach c n s0 ∧ rtc sys_step s0 s ∧ s_owner s0 = OPushA x b ∧ contents (s_q s0) = Some l ∧ a_cap a = 2 * Z.of_nat (length l)) ∧
    (∀ x b t, s_owner s = OPushB x b t → ∃ s0 l, sys_reach c n s0 ∧ rtc sys_step s0 s ∧ s_owner s0 = OPushA x b ∧ contents (s_q s0) = Some l ∧ Z.of_nat (length l) = b - t)) as [H _]; [|by apply H].
  clear a Ha. induction Hr as [|s s' Hr [IH1 IH2] Hs].
  { split; [|done]. intros a Ha. cbn in Ha. simplify_eq. by left. }
  split.
  - intros a Ha. assert ((a_cap <$> q_arrs (s_q s')) !! q_cur (s_q s') = Some (a_cap a)) as Hk by (by rewrite list_lookup_fmap, Ha).
    destruct (step_arrs _ _ Hs) as [[E1 E2]|(x & b & t & ao & Hown & Hao & Hlt & E1 & E2)].
    + rewrite E1, E2, list_lookup_fmap in Hk. destruct (q_arrs (s_q s) !! q_cur (s_q s)) as [a'|] eqn:Ea; [|done]. cbn in Hk. injection Hk as Hk. rewrite <- Hk.
      destruct (IH1 a' eq_refl) as [?|(s0 & x & b & l & H1 & H2 & H3)]; [by left|]. right. exists s0, x, b, l. split_and!; try naive_solver. by eapply rtc_r.
    + rewrite E1, E2, lookup_app_r in Hk by (by rewrite fmap_length). rewrite fmap_length, Nat.sub_diag in Hk. cbn in Hk. injection Hk as Hk.
      destruct (IH2 x b t Hown) as (s0 & l & H1 & H2 & H3 & H4 & H5). right. exists s0, x, b, l. split_and!; try done; [by eapply rtc_r|].
      rewrite H5, <- Hk. destruct (sys_inv c n s Hc Hr) as (h & l' & pend & ca & (Hcur & _) & Ho & _). rewrite Hown in Ho. cbn in Ho. rewrite Hao in Hcur.
      injection Hcur as <-. lia.
  - intros x b t Hown. inversion Hs as [q ts log y Es|q ts log Es|q o ts log q' o' e Ho Es|q o ts log i p q' p' e Hi Ht Es]; subst; cbn [s_owner] in Hown; [done|done| |].
    + destruct o as [|y b'|y b' t'|y b' a|y b'|b' a|b' a|b' t' a|b' t' item|b' item]; cbn [owner_step] in Ho; try (simplify_eq; done).
      * simplify_eq. destruct (sys_inv c n _ Hc Hr) as (h & l & pend & ca & Hq & Ho' & _). cbn [s_q s_owner] in Hq, Ho'. cbn in Ho'.
        exists (Sys q' (OPushA x b) ts log), l. split_and!; [done|by eapply rtc_l; [|done]|done| |].
        -- by eapply contents_idle.
        -- destruct Hq as (_ & _ & Hlen & _). cbn in Hlen. lia.
      * destruct (q_arrs q !! q_cur q) as [ar|]; [|done]. cbn [mbind option_bind] in Ho. case_bool_decide; by simplify_eq.
      * case_bool_decide; [|by simplify_eq]. destruct (q_arrs q !! a) as [ar|]; [|done]. cbn in Ho. by simplify_eq.
      * case_bool_decide; [|by simplify_eq]. case_bool_decide; by simplify_eq.
    + destruct (IH2 x b t Hown) as (s0 & l & H1 & H2 & H3). exists s0, l. split_and!; try naive_solver. by eapply rtc_r.
Qed.

(** So a queue that never holds as many items as it was made for when an item is pushed keeps its first array. *)
Theorem C82_no_growth c n s : pow2Z c → sys_reach c n s →
  (∀ s0 x b l, sys_reach c n s0 → rtc sys_step s0 s → s_owner s0 = OPushA x b → contents (s_q s0) = Some l → Z.of_nat (length l) < c) → length (q_arrs (s_q s)) = 1%nat.
Proof.
  intros Hc Hr H. destruct (reach_caps _ _ _ Hr) as (E0 & H0 & Hk). pose proof (pow2Z_pos _ Hc).
  destruct (lookup_lt_is_Some_2 (q_arrs (s_q s)) (q_cur (s_q s)) ltac:(lia)) as [a Ha].
  destruct (decide (length (q_arrs (s_q s)) = 1%nat)) as [|Hne]; [done|]. exfalso.
  assert (2 <= 2 ^ Z.of_nat (q_cur (s_q s))) as Hp. { change (2 ^ 1 <= 2 ^ Z.of_nat (q_cur (s_q s))). apply Z.pow_le_mono_r; lia. }
  destruct (C82_grows c n s a Hc Hr Ha) as [Hcap|(s0 & x & b & l & R1 & R2 & R3 & R4 & R5)].
  - rewrite (Hk _ _ Ha) in Hcap. nia.
  - specialize (H s0 x b l R1 R2 R3 R4). rewrite (Hk _ _ Ha) in R5. nia.
Qed.
End props.

(** * Examples: three pushes into a queue of capacity two, with two thieves *)
Example C82_example : ∃ (s : system nat) (a : arr nat), mem_reach 2 2 s [0%nat] ∧ s_owner s = OIdle ∧ q_arrs (s_q s) !! q_cur (s_q s) = Some a ∧ a_cap a = 4 ∧
  wsq_frees (s_q s) [0%nat] = [0; 1]%nat ∧ length (pushed (s_log s)) = 3%nat.
Proof.
  destruct (acts C39_schedule (Some (Sys (wsq_init 2) OIdle [TIdle; TIdle] []))) as [s|] eqn:E; [|by vm_compute in E].
  assert (sys_reach 2 2 s) as Hr by exact (acts_reach 2 2 _ _ _ (sr_init 2 2) E). destruct (sys_mem _ _ _ Hr) as [g Hg].
  pose proof (C82_freed _ _ _ _ Hg) as Hf. vm_compute in E. apply (inj Some) in E. subst s. unfold wsq_frees in Hf.
  assert (g = [0%nat]) as ->. { apply (app_inj_tail g [0%nat] 1%nat 1%nat). exact Hf. }
  eexists _, _. split; [exact Hg|]. split; [done|]. split; [done|]. by vm_compute.
Qed.
(** A thief that has read the address of the first array before the owner replaced it. *)
Definition C82_schedule : list action :=
  [APush 1; AOwner; AOwner; AOwner; AOwner; APush 2; AOwner; AOwner; AOwner; AOwner; AThief 0; AThief 0; AThief 0; APush 3; AOwner; AOwner; AOwner].
Example C82_in_use_example : ∃ (s : system nat) (g : list nat), mem_reach 2 2 s g ∧ g = [0%nat] ∧ ∃ p, p ∈ s_thieves s ∧ thief_uses p = Some 0%nat.
Proof.
  destruct (acts C82_schedule (Some (Sys (wsq_init 2) OIdle [TIdle; TIdle] []))) as [s|] eqn:E; [|by vm_compute in E].
  assert (sys_reach 2 2 s) as Hr by exact (acts_reach 2 2 _ _ _ (sr_init 2 2) E). destruct (sys_mem _ _ _ Hr) as [g Hg].
  pose proof (C82_freed _ _ _ _ Hg) as Hf. vm_compute in E. apply (inj Some) in E. subst s. unfold wsq_frees in Hf.
  assert (g = [0%nat]) as ->. { apply (app_inj_tail g [0%nat] 1%nat 1%nat). exact Hf. }
  eexists _, _. split; [exact Hg|]. split; [done|]. eexists. split; [by left|done].
Qed.
(** A queue of capacity two that is never full when an item is pushed. *)
Example C82_no_growth_example : ∃ s : system nat, sys_reach 2 1 s ∧ length (pushed (s_log s)) = 3%nat ∧ length (q_arrs (s_q s)) = 1%nat.
Proof.
  set (sch := [APush 1; AOwner; AOwner; AOwner; AOwner; APush 2; AOwner; AOwner; AOwner; AOwner; AThief 0; AThief 0; AThief 0; AThief 0; AThief 0;
    APush 3; AOwner; AOwner; AOwner; AOwner]).
  destruct (acts sch (Some (Sys (wsq_init 2) OIdle [TIdle] []))) as [s|] eqn:E; [|by vm_compute in E].
  exists s. split; [exact (acts_reach 2 1 _ _ _ (sr_init 2 1) E)|]. vm_compute in E. apply (inj Some) in E. subst s. by vm_compute.
Qed.

Print Assumptions C82_freed.
Print Assumptions C82_in_use.
Print Assumptions C82_capacity.
Print Assumptions C82_grows.
Print Assumptions C82_no_growth.
