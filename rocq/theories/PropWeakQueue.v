(** C61: the work-stealing queue under the C++ memory model.  C62: following [_array] after it has grown.
    C63: what a task did is visible after wait. *)
From Verif Require Import Base WSQueue WSQueueProofs PropWSQueue.
From Verif Require Import WeakMem WeakQueue WeakQueueProofs WeakQueueSteps WeakQueueOwner WeakQueueThief WeakQueueProgress WeakTask.
Ltac Zify.zify_post_hook ::= Z.div_mod_to_equations.
Local Open Scope Z_scope.

Section props.
Context {A : Type}.
Notation item := (A * gset ev)%type.

(** The items in the queue, oldest first: the newest values of [_top], [_bottom], [_array] and of the cells. *)
Definition wcontents (s : wsys A) : option (list item) :=
  t ← last (w_top s); b ← last (w_bot s); m ← last (w_arr s); a ← w_arrs s !! m_val m;
  mapM (cell_val a) (seqZ (m_val t) (m_val b - m_val t)).

(** No push so far has allocated a larger array (lines 67–70). *)
Definition not_grown (s : wsys A) : Prop := length (w_arrs s) = 1%nat.

Lemma not_grown_arr sto ld c k (s : wsys A) : wreach sto ld c k s → length (w_arr s) = length (w_arrs s).
Proof.
  induction 1 as [|s a s' _ IH Hs]; [done|]. destruct a as [x n|n|n|i n|j e|j l]; cbn [wstep] in Hs.
  - destruct (w_opc s); try done. destruct (load _ _ _ _ _) as [r|]; [|done]. by injection Hs as <-.
  - destruct (w_opc s); try done. destruct (load _ _ _ _ _) as [r|]; [|done]. by injection Hs as <-.
  - unfold wowner in Hs. destruct (w_opc s) as [|x b|x b top|x b a|x b|x b|b|b a|b a|b a|b top a|b top it|b it]; cbn [mbind option_bind] in Hs.
    + done.
    + destruct (load _ _ _ _ _) as [r|]; [|done]. by injection Hs as <-.
    + destruct (load _ _ _ _ _) as [r|]; [|done]. cbn [mbind option_bind] in Hs. destruct (w_arrs s !! r.1) as [ar|]; [|done].
      cbn [mbind option_bind] in Hs. destruct (bool_decide _); apply (inj Some) in Hs; subst s'; [|done].
      cbn. rewrite !app_length. cbn. lia.
    + destruct (w_arrs s !! a) as [ar|]; [|done]. injection Hs as <-. cbn. by rewrite insert_length.
    + by injection Hs as <-.
    + by injection Hs as <-.
    + destruct (load _ _ _ _ _) as [r|]; [|done]. by injection Hs as <-.
    + by injection Hs as <-.
    + by injection Hs as <-.
    + destruct (load _ _ _ _ _) as [r|]; [|done]. by injection Hs as <-.
    + destruct (bool_decide _); [|by injection Hs as <-]. destruct (w_arrs s !! a) as [ar|]; [|done]. cbn [mbind option_bind] in Hs.
      destruct (load _ _ _ _ _) as [r|]; [|done]. by injection Hs as <-.
    + destruct (bool_decide _); [|by injection Hs as <-]. destruct (cas _ _ _ _ _ _) as [[[ok hs] t']|]; [|done]. by injection Hs as <-.
    + by injection Hs as <-.
  - unfold wthief in Hs. destruct (w_th s !! i) as [[p t]|]; [|done]. cbn [mbind option_bind fst snd] in Hs.
    destruct p as [|top|top|top|top a|top it].
    + destruct (load _ _ _ _ _) as [r|]; [|done]. by injection Hs as <-.
    + by injection Hs as <-.
    + destruct (load _ _ _ _ _) as [r|]; [|done]. cbn [mbind option_bind] in Hs. destruct (bool_decide _); by injection Hs as <-.
    + destruct (load _ _ _ _ _) as [r|]; [|done]. by injection Hs as <-.
    + destruct (w_arrs s !! a) as [ar|]; [|done]. cbn [mbind option_bind] in Hs.
      destruct (load _ _ _ _ _) as [r|]; [|done]. by injection Hs as <-.
    + destruct (cas _ _ _ _ _ _) as [[[ok hs] t']|]; [|done]. by injection Hs as <-.
  - injection Hs as <-. by destruct j.
  - destruct (view_of s l); [|done]. injection Hs as <-. by destruct j.
Qed.

(** The statements, for any orders. *)
Definition linearizable (s : wsys A) : Prop :=
  ∃ h l pend, deque_run h l ∧ (pend = [] ∨ ∃ r, pend = [EPop r]) ∧
    omap d_owner h = omap e_owner (w_log s) ++ pend ∧
    omap d_steal h = omap e_steal (w_log s) ∧
    (w_opc s = WIdle → pend = [] ∧ wcontents s = Some l).

Lemma winv_linearizable (s : wsys A) h l pend : winv s h l pend → linearizable s.
Proof.
  intros (Hsi & Hb & _). pose proof Hsi as (ca & Hq & Ho & _ & Hd & H1 & H2).
  exists h, l, pend. split; [done|]. split; [by eapply pend_shape|]. split; [done|]. split; [done|].
  intros Hi. cbn in Ho. rewrite Hi in Ho. split; [exact Ho|].
  destruct (s_cur _ _ _ _ Hsi) as (ar & Har & _ & _ & (_ & _ & Hlen & _ & Hel) & _). rewrite Hi in Hlen. cbn in Hlen, Hel.
  destruct Hb as (B1 & B2 & B3 & B4 & _). unfold wcontents.
  destruct (last (w_top s)) as [mt|] eqn:Et; [|by apply last_None in Et]. cbn [mbind option_bind].
  destruct (last (w_bot s)) as [mb|] eqn:Eb; [|by apply last_None in Eb]. cbn [mbind option_bind].
  destruct (last (w_arr s)) as [ma|] eqn:Ea; [|by apply last_None in Ea]. cbn [mbind option_bind].
  assert (m_val mt = p_top s) as ->.
  { rewrite last_lookup in Et. rewrite (B4 _ _ Et). done. }
  assert (m_val mb = p_bot s) as -> by (unfold p_bot; by rewrite Eb).
  assert (m_val ma = p_cur s) as -> by (unfold p_cur; by rewrite Ea).
  rewrite Har. cbn [mbind option_bind].
  apply mapM_Some. apply Forall2_same_length_lookup_2; [rewrite seqZ_length; lia|].
  intros i z y Hz Hy. rewrite lookup_seqZ in Hz. destruct Hz as [-> _]. rewrite <-arr_pop_proj. by apply Hel.
Qed.

Lemma linearizable_conserved s :
  linearizable s → w_opc s = WIdle → ∃ l, wcontents s = Some l ∧ pushed (w_log s) ≡ₚ taken (w_log s) ++ l.
Proof.
  intros (h & l & pend & Hd & Hp & H1 & H2 & H3) Hi. destruct (H3 Hi) as [-> Hl].
  exists l. split; [done|]. by apply (lin_conserve h l [] (w_log s)).
Qed.
Lemma linearizable_taken s : linearizable s → ∃ rest, pushed (w_log s) ≡ₚ taken (w_log s) ++ rest.
Proof. intros (h & l & pend & Hd & Hp & H1 & H2 & _). eexists. by apply (lin_conserve h l pend (w_log s)). Qed.

Lemma winv_handover sto ld (s : wsys A) h l pend i n s' x :
  winv s h l pend → wstep sto ld (AThief i n) s = Some s' → w_log s' = w_log s ++ [ESteal (Some x)] →
  ∃ v, view_of s' (Some i) = Some v ∧ x.2 ⊆ v_ev v.
Proof.
  intros Hi Hs Hl. cbn [wstep] in Hs. destruct (w_th s !! i) as [[p t]|] eqn:Hth; [|unfold wthief in Hs; by rewrite Hth in Hs].
  assert (∀ e : event item, w_log s ≠ w_log s ++ [e]) as Hne.
  { intros e E. apply (f_equal length) in E. rewrite app_length in E. cbn in E. lia. }
  destruct p as [|top|top|top|top a|top it].
  6: { destruct (step_VD _ _ _ _ _ _ _ _ _ _ _ Hi Hth Hs) as [_ Hk]. destruct (Hk x Hl) as (pt & Hpt & Hx).
       exists (t_cur pt.2). cbn. by rewrite Hpt. }
  all: exfalso; unfold wthief in Hs; rewrite Hth in Hs; cbn [mbind option_bind fst snd] in Hs.
  - destruct (load _ _ _ _ _) as [r|]; [|done]. injection Hs as <-. by apply Hne in Hl.
  - injection Hs as <-. by apply Hne in Hl.
  - destruct (load _ _ _ _ _) as [r|]; [|done]. cbn [mbind option_bind] in Hs.
    destruct (bool_decide _); injection Hs as <-; [by apply Hne in Hl|]. cbn in Hl. by apply app_inv_head in Hl.
  - destruct (load _ _ _ _ _) as [r|]; [|done]. injection Hs as <-. by apply Hne in Hl.
  - destruct (w_arrs s !! a) as [ar|]; [|done]. cbn [mbind option_bind] in Hs.
    destruct (load _ _ _ _ _) as [r|]; [|done]. injection Hs as <-. by apply Hne in Hl.
Qed.

(** * C61: the code, as long as no push has grown the array *)

Lemma code_inv c k (s : wsys A) :
  pow2Z c → wreach code_store code_load c k s → not_grown s → ∃ h l pend, winv s h l pend.
Proof.
  intros Hc Hr Hn. apply (wreach_inv code_store code_load c k s Hc Hr). right. by rewrite (not_grown_arr _ _ _ _ _ Hr).
Qed.

(** Whatever messages the loads read, the completed operations are those of a double-ended queue, as in
    [C39_linearizable]. *)
Theorem C61_linearizable c k (s : wsys A) :
  pow2Z c → wreach code_store code_load c k s → not_grown s →
  ∃ h l pend, deque_run h l ∧ (pend = [] ∨ ∃ r, pend = [EPop r]) ∧
    omap d_owner h = omap e_owner (w_log s) ++ pend ∧
    omap d_steal h = omap e_steal (w_log s) ∧
    (w_opc s = WIdle → pend = [] ∧ wcontents s = Some l).
Proof. intros Hc Hr Hn. destruct (code_inv c k s Hc Hr Hn) as (h & l & pend & Hi). by eapply winv_linearizable. Qed.

Theorem C61_items_conserved c k (s : wsys A) :
  pow2Z c → wreach code_store code_load c k s → not_grown s → w_opc s = WIdle →
  ∃ l, wcontents s = Some l ∧ pushed (w_log s) ≡ₚ taken (w_log s) ++ l.
Proof. intros Hc Hr Hn. apply linearizable_conserved. by eapply C61_linearizable. Qed.

Theorem C61_taken_once c k (s : wsys A) :
  pow2Z c → wreach code_store code_load c k s → not_grown s → ∃ rest, pushed (w_log s) ≡ₚ taken (w_log s) ++ rest.
Proof. intros Hc Hr Hn. apply linearizable_taken. by eapply C61_linearizable. Qed.

(** No thread uses an array whose construction it does not know. *)
Theorem C61_no_race c k (s : wsys A) :
  pow2Z c → wreach code_store code_load c k s → not_grown s → w_race s = false.
Proof.
  intros Hc Hr Hn. destruct (code_inv c k s Hc Hr Hn) as (h & l & pend & _ & Hb & _).
  by destruct Hb as (_ & _ & _ & _ & _ & _ & _ & _ & _ & _ & _ & Hw).
Qed.

(** A thief that gets an item knows everything that happened before the item was pushed. *)
Theorem C61_handover c k (s : wsys A) i n s' x :
  pow2Z c → wreach code_store code_load c k s → not_grown s →
  wstep code_store code_load (AThief i n) s = Some s' → w_log s' = w_log s ++ [ESteal (Some x)] →
  ∃ v, view_of s' (Some i) = Some v ∧ x.2 ⊆ v_ev v.
Proof.
  intros Hc Hr Hn Hs Hl. destruct (code_inv c k s Hc Hr Hn) as (h & l & pend & Hi). by eapply winv_handover.
Qed.

(** The item of a push carries everything the owner knew when push was called. *)
Theorem C61_push_knows sto ld (s : wsys A) (x : A) n s' v :
  wstep sto ld (APush x n) s = Some s' → view_of s None = Some v → ∃ b, w_opc s' = WPushA (x, v_ev v) b.
Proof.
  cbn. destruct (w_opc s); try done. destruct (load _ _ _ _ _) as [r|]; [|done]. cbn. intros [= <-] [= <-]. eauto.
Qed.

(** Every started operation can go on. *)
Theorem C61_never_stuck c k (s : wsys A) :
  wreach code_store code_load c k s →
  (w_opc s = WIdle → (∀ x : A, ∃ n, is_Some (wstep code_store code_load (APush x n) s)) ∧
                     ∃ n, is_Some (wstep code_store code_load (APop n) s)) ∧
  (w_opc s ≠ WIdle → ∃ n, is_Some (wstep code_store code_load (AOwner n) s)) ∧
  ∀ i, (i < length (w_th s))%nat → ∃ n, is_Some (wstep code_store code_load (AThief i n) s).
Proof. apply never_stuck. Qed.

(** * C62: with a store that releases, also after the array has grown *)
Lemma fixed_inv c k (s : wsys A) : pow2Z c → wreach Release code_load c k s → ∃ h l pend, winv s h l pend.
Proof. intros Hc Hr. apply (wreach_inv Release code_load c k s Hc Hr). by left. Qed.

Theorem C62_release_linearizable c k (s : wsys A) : pow2Z c → wreach Release code_load c k s → linearizable s.
Proof. intros Hc Hr. destruct (fixed_inv c k s Hc Hr) as (h & l & pend & Hi). by eapply winv_linearizable. Qed.
Theorem C62_release_conserved c k (s : wsys A) :
  pow2Z c → wreach Release code_load c k s → w_opc s = WIdle →
  ∃ l, wcontents s = Some l ∧ pushed (w_log s) ≡ₚ taken (w_log s) ++ l.
Proof. intros Hc Hr. apply linearizable_conserved. by eapply C62_release_linearizable. Qed.
Theorem C62_release_no_race c k (s : wsys A) : pow2Z c → wreach Release code_load c k s → w_race s = false.
Proof.
  intros Hc Hr. destruct (fixed_inv c k s Hc Hr) as (h & l & pend & _ & Hb & _).
  by destruct Hb as (_ & _ & _ & _ & _ & _ & _ & _ & _ & _ & _ & Hw).
Qed.
Theorem C62_release_handover c k (s : wsys A) i n s' x :
  pow2Z c → wreach Release code_load c k s →
  wstep Release code_load (AThief i n) s = Some s' → w_log s' = w_log s ++ [ESteal (Some x)] →
  ∃ v, view_of s' (Some i) = Some v ∧ x.2 ⊆ v_ev v.
Proof. intros Hc Hr Hs Hl. destruct (fixed_inv c k s Hc Hr) as (h & l & pend & Hi). by eapply winv_handover. Qed.
End props.

(** * Concrete executions *)
Definition wrun sto ld : list (wact nat) → option (wsys nat) → option (wsys nat) :=
  fold_left (λ s a, s ← s; wstep sto ld a s).
Lemma wrun_reach sto ld c k l s s' : wreach sto ld c k s → wrun sto ld l (Some s) = Some s' → wreach sto ld c k s'.
Proof.
  assert (∀ l, wrun sto ld l None = None) as HN. { intros l'. by induction l'. }
  revert s. induction l as [|a l IH]; intros s Hr Hrun; [cbn in Hrun; by simplify_eq|].
  change (wrun sto ld l (wstep sto ld a s) = Some s') in Hrun. destruct (wstep sto ld a s) as [s1|] eqn:E; [|by rewrite HN in Hrun].
  refine (IH s1 _ Hrun). exact (wr_step _ _ _ _ _ _ _ Hr E).
Qed.

Lemma wrun_example {B} sto ld c k l (f : wsys nat → B) (r : B) :
  f <$> wrun sto ld l (Some (winit c k)) = Some r → ∃ s, wreach sto ld c k s ∧ f s = r.
Proof.
  destruct (wrun sto ld l (Some (winit c k))) as [s|] eqn:E; [|done]. cbn. intros [= <-]. exists s. split; [|done].
  exact (wrun_reach _ _ _ _ _ _ _ (wr_init _ _ c k) E).
Qed.

(** What the executions below show: whether the owner is between operations, the contents, the completed
    operations, and whether a thread knows a user event. *)
Definition idle (s : wsys nat) : bool := match w_opc s with WIdle => true | _ => false end.
Definition items (s : wsys nat) : option (list nat) := option_map (map fst) (wcontents s).
Definition log_items (s : wsys nat) : list (event nat) :=
  map (λ e, match e with EPush x => EPush x.1 | EPop r => EPop (option_map fst r) | ESteal r => ESteal (option_map fst r) end) (w_log s).
Definition knows (s : wsys nat) (j : option nat) (e : nat) : bool :=
  match view_of s j with Some v => bool_decide (EvUser e ∈ v_ev v) | None => false end.

(** A push whose loads of [_bottom], [_top] and [_array] read messages [b], [t] and [a]. *)
Definition wpush (x b t a : nat) : list (wact nat) := [APush x b; AOwner t; AOwner a; AOwner 0; AOwner 0; AOwner 0]%nat.

(** Two thieves, capacity 4: event 7 happens in the owner's thread before the first push; thief 0 reads the
    oldest value of [_bottom] and finds the queue empty although it is not, then both thieves try for the
    first item, thief 1 reading an outdated [_top] first; the owner pops the other one. *)
Definition C61_schedule : list (wact nat) :=
  ([AEvent None 7] ++ wpush 10 0 0 0 ++ wpush 11 1 0 0 ++
   [AThief 0 0; AThief 0 0; AThief 0 0] ++
   [AThief 0 0; AThief 0 0; AThief 1 0; AThief 0 1; AThief 0 0; AThief 1 0; AThief 1 2; AThief 0 1; AThief 1 0; AThief 1 1;
    AThief 0 0; AThief 1 1] ++
   [APop 2; AOwner 0; AOwner 0; AOwner 0; AOwner 1; AOwner 1; AOwner 1; AOwner 0])%nat.

Example C61_example :
  pow2Z 4 ∧ ∃ s, wreach code_store code_load 4 2 s ∧
    (length (w_arrs s), idle s, items s, w_race s, log_items s, knows s (Some 0%nat) 7, knows s (Some 1%nat) 7) =
    (1%nat, true, Some [], false,
     [EPush 10; EPush 11; ESteal None; ESteal (Some 10); ESteal None; EPop (Some 11)]%nat, true, true).
Proof.
  split; [by exists 2|]. apply (wrun_example _ _ _ _ C61_schedule).
  by vm_compute.
Qed.

(** The third push grows the array of capacity 2 and stores the pointer with relaxed order.  The thief reads
    [_bottom] from before and then the new pointer: it uses an array whose construction is not ordered
    before (a data race), reads a cell as it was before the copy, and advances [_top]; the first item is lost. *)
Definition C62_schedule : list (wact nat) :=
  (wpush 10 0 0 0 ++ wpush 11 1 0 0 ++ [APush 12 2; AOwner 0; AOwner 0] ++
   [AThief 0 0; AThief 0 0; AThief 0 2; AThief 0 1; AThief 0 0; AThief 0 0] ++ [AOwner 0; AOwner 0; AOwner 0])%nat.

Theorem C62_relaxed_store_refuted :
  ∃ s, wreach code_store code_load 2 1 s ∧
    (idle s, w_race s, pushed (log_items s), taken (log_items s), items s) =
    (true, true, [10; 11; 12]%nat, [], Some [11; 12]%nat).
Proof. apply (wrun_example _ _ _ _ C62_schedule). by vm_compute. Qed.

(** With a store that releases, the same reads get the item. *)
Definition C62_schedule_release : list (wact nat) :=
  (wpush 10 0 0 0 ++ wpush 11 1 0 0 ++ [APush 12 2; AOwner 0; AOwner 0] ++
   [AThief 0 0; AThief 0 0; AThief 0 2; AThief 0 1; AThief 0 1; AThief 0 0] ++ [AOwner 0; AOwner 0; AOwner 0])%nat.
Example C62_example :
  pow2Z 2 ∧ (w_race <$> wrun Release code_load C62_schedule (Some (winit 2 1))) = None ∧
  ∃ s, wreach Release code_load 2 1 s ∧
    (idle s, w_race s, pushed (log_items s), taken (log_items s), items s) =
    (true, false, [10; 11; 12]%nat, [10]%nat, Some [11; 12]%nat).
Proof.
  split; [by exists 1|]. split; [by vm_compute|]. apply (wrun_example _ _ _ _ C62_schedule_release). by vm_compute.
Qed.

(** * C63: wait *)

(** What the awaited task and its children did happened before wait returned. *)
Definition effects_visible (n : nat) (s : csys) : Prop :=
  c_done s = true → ∀ i, (i < n)%nat → i ∈ v_ev (t_cur (c_wait s)).

(** With the code's relaxed operations, wait can return before the effects of the task are visible. *)
Theorem C63_wait_refuted : ∃ s, creach code_sub code_read 1 s ∧ c_done s = true ∧ 0%nat ∉ v_ev (t_cur (c_wait s)).
Proof.
  set (f := λ (s : option csys) a, s ← s; cstep code_sub code_read a s).
  assert ((λ s, (c_done s, bool_decide (0%nat ∈ v_ev (t_cur (c_wait s))))) <$>
    f (f (f (Some (cinit 1)) (CRun 0)) (CFinish 0)) (CWait 1) = Some (true, false)) as Hrun by (by vm_compute).
  unfold f in Hrun. cbn [mbind option_bind] in Hrun.
  destruct (cstep _ _ (CRun 0) (cinit 1)) as [s1|] eqn:E1; [|done]. cbn [mbind option_bind] in Hrun.
  destruct (cstep _ _ (CFinish 0) s1) as [s2|] eqn:E2; [|done]. cbn [mbind option_bind] in Hrun.
  destruct (cstep _ _ (CWait 1) s2) as [s3|] eqn:E3; [|done].
  exists s3. split.
  - refine (cr_step _ _ _ _ _ _ (cr_step _ _ _ _ _ _ (cr_step _ _ _ _ _ _ (cr_init _ _ _) E1) E2) E3).
  - apply (inj Some) in Hrun. apply (inj2 pair) in Hrun as [H1 H2]. split; [done|]. by apply bool_decide_eq_false in H2.
Qed.

(** With a releasing subtraction and an acquiring load they are visible. *)
Definition task_inv (n : nat) (s : csys) : Prop :=
  ∃ order : list nat,
    length (c_hist s) = S (length order) ∧ NoDup order ∧ Forall (λ i, (i < n)%nat) order ∧
    (∀ k m, c_hist s !! k = Some m → m_val m = (n - k)%nat ∧ ∀ i, i ∈ take k order → i ∈ v_ev (m_view m)) ∧
    length (c_ex s) = n ∧
    (∀ i p t, c_ex s !! i = Some (p, t) → (p ≠ ENew → i ∈ v_ev (t_cur t)) ∧ (p = EDone ↔ i ∈ order)) ∧
    effects_visible n s.

Lemma all_finished (n : nat) (order : list nat) i :
  NoDup order → Forall (λ i, (i < n)%nat) order → (n <= length order)%nat → (i < n)%nat → i ∈ order.
Proof.
  intros Hnd Hf Hle Hi. assert (order ⊆+ seq 0 n) as Hs.
  { apply NoDup_submseteq; [done|]. intros j Hj. apply elem_of_seq. pose proof (proj1 (Forall_forall _ _) Hf j Hj). cbn in *. lia. }
  assert (order ≡ₚ seq 0 n) as Hp.
  { apply submseteq_Permutation_length_le; [|done]. rewrite seq_length. lia. }
  rewrite Hp. apply elem_of_seq. lia.
Qed.

Lemma effects_learn n s ex v :
  effects_visible n s → effects_visible n (CSys (c_hist s) ex (c_done s) (learn v (c_wait s))).
Proof. intros H Hd i Hi. cbn in *. specialize (H Hd i Hi). set_solver. Qed.

Lemma task_step n sub read s a s' :
  releases sub = true → acquires read = true → task_inv n s → cstep sub read a s = Some s' → task_inv n s'.
Proof.
  intros Hsub Hread (order & H1 & H2 & H3 & H4 & H5 & H6 & H7). destruct a as [i|i|k|j k]; cbn [cstep].
  - destruct (c_ex s !! i) as [[p t]|] eqn:Hi; [|done]. cbn [mbind option_bind fst snd]. destruct p; try done. intros [= <-].
    exists order. do 4 (split; [done|]). split; [cbn; by rewrite insert_length|]. split; [|done].
    intros j p' t' Hj. cbn [c_ex] in Hj. apply list_lookup_insert_Some in Hj as [(<- & [= <- <-] & _)|[_ Hj]]; [|by apply H6].
    split; [intros _; cbn; set_solver|]. split; [done|]. intros Hin. destruct (H6 _ _ _ Hi) as [_ Hd]. by apply Hd in Hin.
  - destruct (c_ex s !! i) as [[p t]|] eqn:Hi; [|done]. cbn [mbind option_bind fst snd]. destruct p; try done.
    destruct (H6 _ _ _ Hi) as [He Hd]. specialize (He ltac:(done)).
    assert (i ∉ order) as Hni by (intros Hin; by apply Hd in Hin).
    assert (i < n)%nat as Hin by (apply lookup_lt_Some in Hi; lia).
    unfold rmw. destruct (last (c_hist s)) as [m|] eqn:Hm; [|done]. cbn [mbind option_bind].
    destruct (load _ _ _ _ _) as [[r tr]|] eqn:Hl; [|done]. cbn [mbind option_bind snd]. rewrite Hsub.
    intros Heq. apply (inj Some) in Heq. subst s'.
    apply load_spec in Hl as (m' & _ & _ & _ & _ & Hc & _).
    assert (i ∈ v_ev (t_cur tr)) as Hir by (destruct Hc; set_solver).
    rewrite last_lookup, H1 in Hm. cbn [pred] in Hm. destruct (H4 _ _ Hm) as [Hv Hw]. rewrite firstn_all in Hw.
    exists (order ++ [i]). cbn [c_hist c_ex]. rewrite !app_length. cbn [length]. split; [lia|].
    split; [apply NoDup_app; split; [done|]; split; [intros j Hj Hj'; apply elem_of_list_singleton in Hj'; by subst|apply NoDup_singleton]|].
    split; [apply Forall_app; split; [done|by constructor]|]. split; [|split; [by rewrite insert_length|split; [|done]]].
    + intros k m0 Hk. apply lookup_app_Some in Hk as [Hk|[Hge Hk]].
      * destruct (H4 _ _ Hk) as [Hv' Hw']. split; [done|]. apply lookup_lt_Some in Hk. intros j.
        rewrite take_app_le by lia. apply Hw'.
      * apply list_lookup_singleton_Some in Hk as [Hk <-]. cbn [m_val m_view]. split; [lia|]. intros j Hj.
        assert (j ∈ order ++ [i]) as Hj' by (by eapply elem_of_take in Hj as (? & ? & _); eapply elem_of_list_lookup_2).
        apply elem_of_app in Hj' as [Hj'|Hj']; [specialize (Hw j Hj'); set_solver|].
        apply elem_of_list_singleton in Hj' as ->. set_solver.
    + intros j p' t' Hj. apply list_lookup_insert_Some in Hj as [(<- & [= <- <-] & _)|[Hne Hj]].
      * split; [intros _; cbn; set_solver|]. split; [intros _; set_solver|done].
      * destruct (H6 _ _ _ Hj) as [Ha Hb]. split; [done|]. rewrite Hb. rewrite elem_of_app, elem_of_list_singleton.
        split; [by left|intros [?|?]; [done|by subst]].
  - destruct (c_done s) eqn:Hdone; [done|]. destruct (load _ _ _ _ _) as [[r t]|] eqn:Hl; [|done]. cbn [mbind option_bind fst snd].
    intros [= <-]. exists order. do 6 (split; [done|]). intros Hd i Hi. cbn [c_done c_wait] in *.
    apply bool_decide_eq_true in Hd. subst r. apply load_spec in Hl as (m & Hm & Hv & _ & _ & _ & _ & _ & Ha & _).
    destruct (H4 _ _ Hm) as [Hv' Hw]. specialize (Ha Hread). apply lookup_lt_Some in Hm as Hlt.
    assert (length order <= n)%nat as Hle.
    { assert (order ⊆+ seq 0 n) as Hs.
      { apply NoDup_submseteq; [done|]. intros j Hj. apply elem_of_seq. pose proof (proj1 (Forall_forall _ _) H3 j Hj). cbn in *. lia. }
      apply submseteq_length in Hs. by rewrite seq_length in Hs. }
    assert (k = length order) as -> by lia. rewrite firstn_all in Hw.
    assert (i ∈ v_ev (m_view m)) as Hin by (apply Hw; apply (all_finished n); [done|done|lia|done]). destruct Ha. set_solver.
  - destruct (cview_of s k) as [v|]; [|done]. cbn [mbind option_bind]. destruct j as [j|]; intros [= <-].
    + exists order. do 4 (split; [done|]). split; [cbn; by rewrite alter_length|]. split; [|done].
      intros i p t Hi. cbn [c_ex] in Hi. destruct (decide (i = j)) as [->|Hne].
      * rewrite list_lookup_alter in Hi. destruct (c_ex s !! j) as [[p' t']|] eqn:Hj; [|done]. injection Hi as <- <-.
        destruct (H6 _ _ _ Hj) as [Ha Hb]. split; [|done]. intros Hp. specialize (Ha Hp). cbn. set_solver.
      * rewrite list_lookup_alter_ne in Hi by done. by apply H6.
    + exists order. do 6 (split; [done|]). by apply effects_learn.
Qed.

Theorem C63_release_acquire n sub read s :
  releases sub = true → acquires read = true → creach sub read n s → effects_visible n s.
Proof.
  intros Hsub Hread Hr. assert (task_inv n s) as (order & _ & _ & _ & _ & _ & _ & H); [|exact H].
  induction Hr as [|s a s' _ IH Hs]; [|by eapply task_step].
  exists []. split; [done|]. split; [by constructor|]. split; [done|]. split; [|split; [by apply replicate_length|split; [|done]]].
  - intros [|k] m; [|done]. intros [= <-]. cbn. split; [lia|]. intros i Hi. by apply elem_of_nil in Hi.
  - intros i p t Hi. apply lookup_replicate in Hi as [[= -> ->] _]. split; [done|]. split; [done|]. intros Hin. by apply elem_of_nil in Hin.
Qed.

(** A task with one child, executed by two threads; the waiting thread reads an old count first. *)
Example C63_example :
  releases Release = true ∧ acquires Acquire = true ∧
  ∃ s, creach Release Acquire 2 s ∧ c_done s = true ∧ effects_visible 2 s.
Proof.
  split; [done|]. split; [done|].
  assert (∀ l s, creach Release Acquire 2 s →
    ∀ s', fold_left (λ s a, s ← s; cstep Release Acquire a s) l (Some s) = Some s' → creach Release Acquire 2 s') as Hreach.
  { intros l. induction l as [|a l IH]; intros s Hr s' Hs'; [by injection Hs' as <-|]. cbn [fold_left mbind option_bind] in Hs'.
    destruct (cstep _ _ a s) as [s1|] eqn:E; [apply (IH s1); [by eapply cr_step|done]|].
    exfalso. clear -Hs'. by induction l. }
  assert (c_done <$> fold_left (λ s a, s ← s; cstep Release Acquire a s)
    [CRun 1; CFinish 1; CWait 0; CRun 0; CWait 1; CFinish 0; CWait 2]%nat (Some (cinit 2)) = Some true) as Hrun by (by vm_compute).
  destruct (fold_left _ _ _) as [s|] eqn:E; [|done]. exists s.
  assert (creach Release Acquire 2 s) as Hr by (eapply Hreach; [constructor|exact E]).
  split; [done|]. split; [by apply (inj Some) in Hrun|]. exact (C63_release_acquire 2 Release Acquire s eq_refl eq_refl Hr).
Qed.

Print Assumptions C61_linearizable.
Print Assumptions C61_items_conserved.
Print Assumptions C61_taken_once.
Print Assumptions C61_no_race.
Print Assumptions C61_handover.
Print Assumptions C61_push_knows.
Print Assumptions C61_never_stuck.
Print Assumptions C62_release_linearizable.
Print Assumptions C62_release_conserved.
Print Assumptions C62_release_no_race.
Print Assumptions C62_release_handover.
Print Assumptions C62_relaxed_store_refuted.
Print Assumptions C63_wait_refuted.
Print Assumptions C63_release_acquire.
