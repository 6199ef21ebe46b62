(** C39: the work-stealing queue neither loses nor duplicates items. *)
From Verif Require Import Base WSQueue WSQueueProofs.
Ltac Zify.zify_post_hook ::= Z.div_mod_to_equations.
Local Open Scope Z_scope.

Section props.
Context {A : Type}.

(** The items in the queue, oldest first, as stored in the current array; [None] if a cell between
    [_top] and [_bottom] was never written. *)
Definition contents (q : wsq A) : option (list A) :=
  a ← q_arrs q !! q_cur q; mapM (arr_pop a) (seqZ (q_top q) (q_bot q - q_top q)).

(** Items pushed and taken according to the completed operations. *)
Definition pushed (log : list (event A)) : list A := omap (λ e, match e with EPush x => Some x | _ => None end) log.
Definition taken (log : list (event A)) : list A :=
  omap (λ e, match e with EPush _ => None | EPop r => r | ESteal r => r end) log.

Lemma contents_idle q o ca l : q_inv q o ca l → logical_end q o = q_bot q → contents q = Some l.
Proof.
  intros (Hcur & _ & Hlen & _ & Hel) He. unfold contents. rewrite Hcur. cbn [mbind option_bind].
  apply mapM_Some. apply Forall2_same_length_lookup_2; [rewrite seqZ_length; lia|].
  intros i z x Hz Hx. rewrite lookup_seqZ in Hz. destruct Hz as [-> _]. by apply Hel.
Qed.

Lemma pend_shape (q : wsq A) o ca l pend : o_inv q o ca l pend → pend = [] ∨ ∃ r, pend = [EPop r].
Proof.
  intros Ho. destruct o as [|x b|x b t|x b a|x b|b a|b a|b t a|b t item|b item]; cbn in Ho; try (destruct_and?; by left).
  - destruct Ho as (_ & _ & _ & Ho1 & Ho2 & Ho3).
    destruct (Z.lt_trichotomy t b) as [Hlt|[Heq|Hgt]].
    + destruct (Ho1 Hlt) as (x & -> & _). eauto.
    + rewrite Ho2 by done. by left.
    + destruct (Ho3 Hgt) as [-> _]. eauto.
  - destruct Ho as (_ & _ & Hle & Ho1 & Ho2). destruct (decide (t = b)) as [Heq|Hne].
    + destruct (Ho2 Heq) as [-> _]. by left.
    + rewrite Ho1 by lia. eauto.
  - destruct Ho as (_ & -> & _). eauto.
Qed.

(** The completed operations are those of a double-ended queue, in an order that keeps the owner's order
    and the order of the successful steals; the owner has at most one decided, unreturned result.  A pop
    takes the newest item, a steal the oldest, and a pop returns nothing only when the queue is empty at
    its place in the order. *)
Theorem C39_linearizable c n (s : system A) :
  pow2Z c → sys_reach c n s →
  ∃ h l pend, deque_run h l ∧ (pend = [] ∨ ∃ r, pend = [EPop r]) ∧
    omap d_owner h = omap e_owner (s_log s) ++ pend ∧
    omap d_steal h = omap e_steal (s_log s) ∧
    (s_owner s = OIdle → pend = [] ∧ contents (s_q s) = Some l).
Proof.
  intros Hc Hr. destruct (sys_inv c n s Hc Hr) as (h & l & pend & ca & Hq & Ho & _ & Hd & H1 & H2).
  exists h, l, pend. split; [done|]. split; [|split; [done|split; [done|]]].
  - by eapply pend_shape.
  - intros Hidle. rewrite Hidle in Ho. split; [exact Ho|]. eapply contents_idle; [exact Hq|]. by rewrite Hidle.
Qed.

Lemma deque_conserve (h : list (dop A)) l :
  deque_run h l →
  omap (λ d, match d with DPush x => Some x | _ => None end) h ≡ₚ
  omap (λ d, match d with DPop x | DSteal x => Some x | _ => None end) h ++ l.
Proof.
  induction 1 as [|h l x _ IH|h l x _ IH|h _ IH|h l x _ IH]; [done|..]; rewrite !omap_snoc; cbn; rewrite ?app_nil_r.
  - rewrite IH. by rewrite <-app_assoc.
  - rewrite IH. rewrite (Permutation_app_comm l [x]). by rewrite <-app_assoc.
  - rewrite IH. by rewrite app_nil_r.
  - rewrite IH. by rewrite <-app_assoc.
Qed.

Lemma omap_omap_eq {B C D} (f : B → option C) (g : C → option D) (k : B → option D) (l : list B) :
  (∀ x, k x = f x ≫= g) → omap k l = omap g (omap f l).
Proof.
  intros Hk. induction l as [|x l IH]; [done|]. cbn. rewrite Hk, IH. destruct (f x); cbn; [|done].
  by destruct (g c).
Qed.

Lemma split_takes (h : list (dop A)) :
  omap (λ d, match d with DPop x | DSteal x => Some x | _ => None end) h ≡ₚ
  omap (λ d, match d with DPop x => Some x | _ => None end) h ++ omap d_steal h.
Proof.
  induction h as [|d h IH]; [done|]. destruct d; cbn; rewrite IH; [done|done|done|]. apply Permutation_middle.
Qed.
Lemma split_taken (log : list (event A)) :
  taken log ≡ₚ omap (λ e, match e with EPop r => r | _ => None end) log ++ omap e_steal log.
Proof.
  unfold taken. induction log as [|[x|[x|]|[x|]] log IH]; cbn; rewrite ?IH; try done. apply Permutation_middle.
Qed.

(** Counting in such an order. *)
Lemma lin_conserve (h : list (dop A)) l pend log :
  deque_run h l → (pend = [] ∨ ∃ r, pend = [EPop r]) →
  omap d_owner h = omap e_owner log ++ pend → omap d_steal h = omap e_steal log →
  pushed log ≡ₚ taken log ++ omap (λ e, match e with EPop r => r | _ => None end) pend ++ l.
Proof.
  intros Hd Hpend H1 H2.
  pose proof (deque_conserve h l Hd) as Hp. rewrite split_takes, H2 in Hp.
  rewrite (omap_omap_eq d_owner (λ e, match e with EPush x => Some x | _ => None end)) in Hp by (by intros []).
  rewrite (omap_omap_eq d_owner (λ e, match e with EPop r => r | _ => None end) (λ d, match d with DPop x => Some x | _ => None end)) in Hp by (by intros []).
  rewrite H1 in Hp. rewrite !omap_app in Hp.
  rewrite <-(omap_omap_eq e_owner (λ e, match e with EPush x => Some x | _ => None end) (λ e, match e with EPush x => Some x | _ => None end)) in Hp by (by intros []).
  rewrite <-(omap_omap_eq e_owner (λ e, match e with EPop r => r | _ => None end) (λ e, match e with EPop r => r | _ => None end)) in Hp by (by intros []).
  assert (omap (λ e : event A, match e with EPush x => Some x | _ => None end) pend = []) as Hpe.
  { by destruct Hpend as [->|[r ->]]. }
  rewrite Hpe, app_nil_r in Hp. unfold pushed. rewrite Hp, split_taken.
  rewrite <-!app_assoc. apply Permutation_app_head. rewrite !app_assoc. apply Permutation_app_tail.
  apply Permutation_app_comm.
Qed.

(** With the owner between operations (thieves anywhere), every pushed item was either returned exactly
    once by a pop or a steal or is still in the queue. *)
Theorem C39_items_conserved c n (s : system A) :
  pow2Z c → sys_reach c n s → s_owner s = OIdle →
  ∃ l, contents (s_q s) = Some l ∧ pushed (s_log s) ≡ₚ taken (s_log s) ++ l.
Proof.
  intros Hc Hr Hi. destruct (C39_linearizable c n s Hc Hr) as (h & l & pend & Hd & Hp & H1 & H2 & H3).
  destruct (H3 Hi) as [-> Hl]. exists l. split; [done|]. by apply (lin_conserve h l [] (s_log s)).
Qed.

(** At any moment, even in the middle of operations, no item has been returned more often than it was
    pushed: distinct items are returned at most once. *)
Theorem C39_taken_once c n (s : system A) :
  pow2Z c → sys_reach c n s → ∃ rest, pushed (s_log s) ≡ₚ taken (s_log s) ++ rest.
Proof.
  intros Hc Hr. destruct (C39_linearizable c n s Hc Hr) as (h & l & pend & Hd & Hpend & H1 & H2 & _).
  eexists. by apply (lin_conserve h l pend (s_log s)).
Qed.

(** No thread ever follows a dangling array pointer: every started operation can take its next step. *)
Theorem C39_never_stuck c n (s : system A) :
  pow2Z c → sys_reach c n s →
  (s_owner s ≠ OIdle → is_Some (owner_step (s_q s) (s_owner s))) ∧
  Forall (λ p, is_Some (thief_step (s_q s) p)) (s_thieves s).
Proof.
  intros Hc Hr. destruct (sys_inv c n s Hc Hr) as (h & l & pend & ca & (Hcur & _) & Ho & Ht & _). split.
  - intros Hne. destruct (s_owner s) as [|x b|x b t|x b a|x b|b a|b a|b t a|b t item|b item]; cbn in *; try done; try by eexists.
    + rewrite Hcur. cbn. destruct (bool_decide _); by eexists.
    + destruct Ho as (_ & -> & _). rewrite Hcur. cbn. destruct (bool_decide (t <= b)); by eexists.
    + destruct (bool_decide (t = b)), (bool_decide (q_top (s_q s) = t)); by eexists.
  - eapply Forall_impl; [exact Ht|]. intros [|t|t|t a|t item]; cbn; intros Hp; try by eexists.
    + destruct (bool_decide _); by eexists.
    + destruct Hp as (_ & ar & -> & _). by eexists.
    + destruct (bool_decide _); by eexists.
Qed.

(** With the owner between operations, [size] and [empty] report the contents. *)
Theorem C39_size_exact c n (s : system A) :
  pow2Z c → sys_reach c n s → s_owner s = OIdle →
  ∃ l, contents (s_q s) = Some l ∧ wsq_size (s_q s) = Z.of_nat (length l) ∧
    (wsq_empty (s_q s) = true ↔ l = []).
Proof.
  intros Hc Hr Hi. destruct (sys_inv c n s Hc Hr) as (h & l & pend & ca & Hq & _). rewrite Hi in Hq.
  exists l. split; [by eapply contents_idle|]. destruct Hq as (_ & _ & Hlen & _). cbn in Hlen.
  unfold wsq_size, wsq_empty. rewrite bool_decide_eq_true_2 by lia. split; [lia|].
  rewrite bool_decide_eq_true. destruct l; cbn in *; split; intros; try done; lia.
Qed.

(** * Operations without interference *)

(** Run the owner, or a thief, alone until its operation returns. *)
Fixpoint owner_run (fuel : nat) (q : wsq A) (o : opc A) : option (wsq A * event A) :=
  match fuel with
  | O => None
  | S fuel => r ← owner_step q o;
    match r with (q, o, Some e) => Some (q, e) | (q, o, None) => owner_run fuel q o end
  end.
Fixpoint thief_run (fuel : nat) (q : wsq A) (p : tpc A) : option (wsq A * event A) :=
  match fuel with
  | O => None
  | S fuel => r ← thief_step q p;
    match r with (q, p, Some e) => Some (q, e) | (q, p, None) => thief_run fuel q p end
  end.
Definition do_push (q : wsq A) (x : A) := owner_run 4 q (push_start q x).
Definition do_pop (q : wsq A) := owner_run 5 q (pop_start q).
Definition do_steal (q : wsq A) := thief_run 5 q TIdle.

Lemma owner_run_reach c n fuel q o ts log q' e :
  sys_reach c n (Sys q o ts log) → owner_run fuel q o = Some (q', e) →
  sys_reach c n (Sys q' OIdle ts (log ++ [e])).
Proof.
  revert q o. induction fuel as [|fuel IH]; intros q o Hr Hrun; [done|]. cbn in Hrun.
  destruct (owner_step q o) as [[[q1 o1] [e1|]]|] eqn:E; cbn in Hrun; [|eapply IH; [|exact Hrun]|done].
  - injection Hrun as <- <-. assert (o1 = OIdle) as ->.
    { destruct o; cbn in E; repeat (case_match || simplify_option_eq); done. }
    by apply (sr_step _ _ _ _ Hr), (st_owner _ _ _ _ _ _ (Some e1)).
  - by apply (sr_step _ _ _ _ Hr), (st_owner _ _ _ _ _ _ None).
Qed.

Lemma push_seq q ca l x :
  q_inv q OIdle ca l → ∃ q' ca', do_push q x = Some (q', EPush x) ∧ q_inv q' OIdle ca' (l ++ [x]).
Proof.
  intros (Hcur & Hp2 & Hlen & Hcap & Hel). cbn in Hlen. pose proof (pow2Z_pos _ Hp2).
  unfold do_push, push_start. cbn [owner_run owner_step mbind option_bind]. rewrite Hcur. cbn [mbind option_bind].
  case_bool_decide as Hg; cbn [owner_run owner_step mbind option_bind].
  - destruct (grow_spec ca (q_bot q) (q_top q) Hp2) as [Hgc Hgp]; [lia|].
    eexists _, (arr_push (arr_grow ca (q_bot q) (q_top q)) (q_bot q) x). split; [done|].
    unfold q_inv. cbn. rewrite list_lookup_alter, lookup_app_r, Nat.sub_diag by lia. cbn.
    rewrite Hgc, app_length. cbn. split; [done|]. split; [by apply pow2Z_double|]. split; [lia|]. split; [lia|].
    intros k y Hk. apply lookup_app_Some in Hk as [Hk|[Hge Hk]].
    + pose proof (lookup_lt_Some _ _ _ Hk). rewrite pop_push_other; [|rewrite Hgc; by apply pow2Z_double|lia|lia].
      apply Hgp; [lia|]. by apply Hel.
    + apply list_lookup_singleton_Some in Hk as [Hk <-].
      replace (q_top q + Z.of_nat k) with (q_bot q) by lia. apply pop_push_same.
  - eexists _, (arr_push ca (q_bot q) x). split; [done|].
    unfold q_inv. cbn. rewrite list_lookup_alter, Hcur. cbn.
    rewrite app_length. cbn. split; [done|]. split; [done|]. split; [lia|]. split; [lia|].
    intros k y Hk. apply lookup_app_Some in Hk as [Hk|[Hge Hk]].
    + pose proof (lookup_lt_Some _ _ _ Hk). rewrite pop_push_other; [|done|lia|lia]. by apply Hel.
    + apply list_lookup_singleton_Some in Hk as [Hk <-].
      replace (q_top q + Z.of_nat k) with (q_bot q) by lia. apply pop_push_same.
Qed.

Lemma pop_seq q ca l x :
  q_inv q OIdle ca (l ++ [x]) → ∃ q', do_pop q = Some (q', EPop (Some x)) ∧ q_inv q' OIdle ca l.
Proof.
  intros (Hcur & Hp2 & Hlen & Hcap & Hel). rewrite app_length in *. cbn in Hlen, Hcap.
  assert (arr_pop ca (q_bot q - 1) = Some x) as Hx.
  { specialize (Hel (length l) x). rewrite lookup_app_r, Nat.sub_diag in Hel by lia.
    replace (q_bot q - 1) with (q_top q + Z.of_nat (length l)) by lia. by apply Hel. }
  unfold do_pop, pop_start. cbn [owner_run owner_step mbind option_bind].
  rewrite bool_decide_eq_true_2 by (cbn; lia). cbn [q_arrs set_bot]. rewrite Hcur. cbn [mbind option_bind owner_run owner_step].
  cbn [q_top set_bot]. rewrite Hx. case_bool_decide as Heq.
  - rewrite bool_decide_eq_true_2 by done. cbn [mbind option_bind owner_run owner_step].
    eexists. split; [done|]. unfold q_inv. cbn. assert (length l = 0%nat) as Hl by lia.
    apply nil_length_inv in Hl as ->. cbn in *. repeat split; try done; lia.
  - cbn [mbind option_bind owner_run owner_step].
    eexists. split; [done|]. unfold q_inv. cbn. repeat split; try done; try lia.
    intros k y Hk. apply Hel. by apply lookup_app_l_Some.
Qed.

Lemma steal_seq q ca l x :
  q_inv q OIdle ca (x :: l) → ∃ q', do_steal q = Some (q', ESteal (Some x)) ∧ q_inv q' OIdle ca l.
Proof.
  intros (Hcur & Hp2 & Hlen & Hcap & Hel). cbn in Hlen, Hcap.
  unfold do_steal. cbn [thief_run thief_step mbind option_bind].
  rewrite bool_decide_eq_true_2 by lia. cbn [mbind option_bind thief_run thief_step].
  rewrite Hcur. cbn [mbind option_bind thief_run thief_step]. rewrite bool_decide_eq_true_2 by done.
  cbn [mbind option_bind].
  pose proof (Hel 0%nat x eq_refl) as Hx. rewrite Z.add_0_r in Hx. rewrite Hx.
  eexists. split; [done|]. unfold q_inv. cbn. repeat split; try done; try lia.
  intros k y Hk. specialize (Hel (S k) y Hk).
  by replace (q_top q + 1 + Z.of_nat k) with (q_top q + Z.of_nat (S k)) by lia.
Qed.

(** Uninterrupted operations, from any state reached by any concurrent history with the owner between
    operations: push adds at the back, pop takes the newest item, steal the oldest, both report an empty
    queue without changing it; growing is covered since the capacity may be reached at any push. *)
Theorem C39_sequential c n (s : system A) :
  pow2Z c → sys_reach c n s → s_owner s = OIdle →
  ∃ l, contents (s_q s) = Some l ∧
    (∀ x, ∃ q', do_push (s_q s) x = Some (q', EPush x) ∧ contents q' = Some (l ++ [x])) ∧
    (∃ q', do_pop (s_q s) = Some (q', EPop (last l)) ∧ contents q' = Some (take (length l - 1) l)) ∧
    (∃ q', do_steal (s_q s) = Some (q', ESteal (head l)) ∧ contents q' = Some (tail l)).
Proof.
  intros Hc Hr Hi. destruct s as [q o ts log]. cbn in *. subst o.
  destruct (sys_inv c n _ Hc Hr) as (h & l & pend & ca & Hq & _). cbn in Hq. exists l.
  split; [by eapply contents_idle|]. split; [|split].
  - intros x. destruct (push_seq q ca l x Hq) as (q' & ca' & H1 & H2). exists q'. split; [done|]. by eapply contents_idle.
  - destruct l as [|x l _] using rev_ind.
    + exists q. split; [|by eapply contents_idle]. destruct Hq as (Hcur & Hp2 & Hlen & _). cbn in Hlen.
      unfold do_pop, pop_start. cbn [owner_run owner_step mbind option_bind].
      rewrite bool_decide_eq_false_2 by (cbn; lia). cbn. f_equal. f_equal. destruct q. unfold set_bot. cbn. f_equal. lia.
    + destruct (pop_seq q ca l x Hq) as (q' & H1 & H2). exists q'. rewrite last_snoc. split; [done|].
      rewrite app_length, Nat.add_sub, take_app. by eapply contents_idle.
  - destruct l as [|x l].
    + exists q. split; [|by eapply contents_idle]. destruct Hq as (Hcur & Hp2 & Hlen & _). cbn in Hlen.
      unfold do_steal. cbn [thief_run thief_step mbind option_bind]. by rewrite bool_decide_eq_false_2 by lia.
    + destruct (steal_seq q ca l x Hq) as (q' & H1 & H2). exists q'. split; [done|]. by eapply contents_idle.
Qed.
End props.

(** The constructor's assertion only checks that the capacity is even.  With capacity 6 the mask is 5,
    the third push overwrites the first item: it is lost and the third is stored twice. *)
Theorem C39_capacity_not_power_refuted :
  ∃ s : system nat, sys_reach 6 0 s ∧ s_owner s = OIdle ∧ pushed (s_log s) = [10; 11; 12]%nat ∧
    taken (s_log s) = [] ∧ contents (s_q s) = Some [12; 11; 12]%nat.
Proof.
  set (q0 := wsq_init 6 : wsq nat).
  destruct (do_push q0 10%nat) as [[q1 e1]|] eqn:E1; [|by vm_compute in E1].
  destruct (do_push q1 11%nat) as [[q2 e2]|] eqn:E2; [|by vm_compute in E1; simplify_eq; vm_compute in E2].
  destruct (do_push q2 12%nat) as [[q3 e3]|] eqn:E3; [|by vm_compute in E1; simplify_eq; vm_compute in E2; simplify_eq; vm_compute in E3].
  exists (Sys q3 OIdle [] ((([] ++ [e1]) ++ [e2]) ++ [e3])). split.
  - eapply owner_run_reach; [|exact E3]. eapply sr_step; [|apply st_push].
    eapply owner_run_reach; [|exact E2]. eapply sr_step; [|apply st_push].
    eapply owner_run_reach; [|exact E1]. eapply sr_step; [|apply st_push]. exact (sr_init 6 0).
  - vm_compute in E1. simplify_eq. vm_compute in E2. simplify_eq. vm_compute in E3. simplify_eq. by vm_compute.
Qed.

(** A schedule given step by step, to compute concrete executions. *)
Inductive action := APush (x : nat) | APop | AOwner | AThief (i : nat).
Definition act (a : action) (s : system nat) : option (system nat) :=
  let 'Sys q o ts log := s in
  match a, o with
  | APush x, OIdle => Some (Sys q (push_start q x) ts log)
  | APop, OIdle => Some (Sys q (pop_start q) ts log)
  | AOwner, _ => '(q', o', e) ← owner_step q o; Some (Sys q' o' ts (add_event log e))
  | AThief i, _ => p ← ts !! i; '(q', p', e) ← thief_step q p; Some (Sys q' o (<[i := p']> ts) (add_event log e))
  | _, _ => None
  end.
Definition acts (l : list action) (s : option (system nat)) : option (system nat) :=
  fold_left (λ s a, s ← s; act a s) l s.

Lemma acts_reach c n l s s' : sys_reach c n s → acts l (Some s) = Some s' → sys_reach c n s'.
Proof.
  assert (∀ l, acts l None = None) as HN. { intros l'. by induction l'. }
  revert s. induction l as [|a l IH]; intros s Hr Hrun; [cbn in Hrun; by simplify_eq|].
  change (acts l (act a s) = Some s') in Hrun. destruct (act a s) as [s1|] eqn:E; [|by rewrite HN in Hrun].
  refine (IH s1 _ Hrun). refine (sr_step _ _ _ _ Hr _). destruct s as [q o ts log]. unfold act in E.
  destruct a; [destruct o; try done; simplify_eq; constructor..| |].
  - destruct (owner_step q o) as [[[q' o'] e]|] eqn:E1; cbn [mbind option_bind] in E; [|done].
    apply (inj Some) in E as <-. by constructor.
  - destruct (ts !! i) as [p|] eqn:E1; cbn [mbind option_bind] in E; [|done].
    destruct (thief_step q p) as [[[q' p'] e]|] eqn:E2; cbn [mbind option_bind] in E; [|done].
    apply (inj Some) in E as <-. by eapply st_thief.
Qed.

(** A history with a grow, two thieves, a thief whose exchange fails, and an owner that loses the last item
    to a thief. *)
Definition C39_schedule : list action :=
  [APush 1; AOwner; AOwner; AOwner; AOwner; APush 2; AOwner; AOwner; AOwner; AOwner;
   APush 3; AOwner; AOwner; AOwner; AOwner;
   AThief 0; AThief 1; AThief 0; AThief 1; AThief 0; AThief 1; AThief 0; AThief 1; AThief 0; AThief 1;
   APop; AOwner; AOwner; AOwner; AOwner;
   APop; AThief 0; AThief 0; AOwner; AOwner; AThief 0; AThief 0; AOwner; AThief 0; AOwner; AOwner].

Example C39_example :
  pow2Z 2 ∧ ∃ s, sys_reach 2 2 s ∧ s_owner s = OIdle ∧ contents (s_q s) = Some [] ∧
    s_log s = [EPush 1; EPush 2; EPush 3; ESteal (Some 1); ESteal None; EPop (Some 3); ESteal (Some 2); EPop None]%nat.
Proof.
  split; [by exists 1|].
  destruct (acts C39_schedule (Some (Sys (wsq_init 2) OIdle [TIdle; TIdle] []))) as [s|] eqn:E; [|by vm_compute in E].
  exists s. split; [exact (acts_reach 2 2 _ _ _ (sr_init 2 2) E)|].
  vm_compute in E. apply (inj Some) in E. subst s. by vm_compute.
Qed.

Print Assumptions C39_linearizable.
Print Assumptions C39_items_conserved.
Print Assumptions C39_taken_once.
Print Assumptions C39_never_stuck.
Print Assumptions C39_size_exact.
Print Assumptions C39_sequential.
Print Assumptions C39_capacity_not_power_refuted.
