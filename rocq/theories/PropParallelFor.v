(** C36: parallel_for covers the range exactly once. *)
From Verif Require Import Base ParallelFor.
Ltac Zify.zify_post_hook ::= Z.div_mod_to_equations.

(** Consecutive parts of [[b, e)]. *)
Fixpoint consecutive (b e : nat) (bs : list (nat * nat)) : Prop :=
  match bs with
  | [] => b = e
  | r :: bs => r.1 = b ∧ r.1 <= r.2 ∧ r.2 <= e ∧ consecutive r.2 e bs
  end.

Lemma pf_loop_consecutive n i nw bsz w b :
  n + i = nw → 0 < n → b = i * bsz → bsz * nw <= w →
  consecutive b w (pf_loop n i nw bsz w b).
Proof.
  revert i b. induction n as [|n IH]; intros i b Hn H0 Hb Hw; [lia|].
  cbn [pf_loop consecutive fst snd]. case_bool_decide as Hi.
  - split; [done|]. split; [lia|]. split; [nia|]. apply IH; [lia|lia|nia|done].
  - split; [done|]. assert (n = 0) as -> by lia. split; [nia|]. split; [done|]. done.
Qed.

Lemma pf_loop_length n i nw bsz w b : length (pf_loop n i nw bsz w b) = n.
Proof. revert i b. induction n as [|n IH]; intros; cbn [pf_loop length]; [done|]. by rewrite IH. Qed.

Lemma pf_loop_sizes n i nw bsz w b j r :
  n + i = nw → b = i * bsz → pf_loop n i nw bsz w b !! j = Some r →
  r.2 - r.1 = if bool_decide (i + j = nw - 1) then w - (nw - 1) * bsz else bsz.
Proof.
  revert i b j. induction n as [|n IH]; intros i b j Hn Hb Hj; [done|].
  cbn [pf_loop] in Hj. destruct j as [|j].
  - cbn in Hj. apply (inj Some) in Hj. subst r. cbn [fst snd]. repeat case_bool_decide; try lia; nia.
  - cbn [lookup list_lookup] in Hj. fold (pf_loop n (S i) nw bsz w) in Hj.
    assert (S i + j = i + S j) as Hs by lia. rewrite <-Hs.
    eapply (IH (S i) _ j); [lia| |exact Hj]. case_bool_decide as Hi; [nia|].
    assert (n = 0) as -> by lia. done.
Qed.

Lemma consecutive_concat {A} (l : list A) b bs :
  consecutive b (length l) bs → concat (subrange l <$> bs) = drop b l.
Proof.
  revert b. induction bs as [|r bs IH]; intros b; cbn [consecutive].
  - intros ->. by rewrite drop_ge.
  - intros (<- & H1 & H2 & H3). cbn [fmap list_fmap concat]. rewrite (IH _ H3). unfold subrange.
    rewrite <-(take_drop (r.2 - r.1) (drop r.1 l)) at 2. rewrite drop_drop.
    by replace (r.1 + (r.2 - r.1)) with r.2 by lia.
Qed.

Lemma concat_all_nil {A} (ls : list (list A)) : Forall (λ l, l = []) ls → concat ls = [].
Proof. induction 1 as [|l ls -> _ IH]; [done|]. cbn. done. Qed.

Lemma interleave_perm {A} (ls : list (list A)) tr : interleave ls tr → tr ≡ₚ concat ls.
Proof.
  induction 1 as [ls H|ls i x l tr Hi _ IH].
  - by rewrite concat_all_nil.
  - rewrite IH. clear IH. rewrite <-(take_drop_middle ls i (x :: l) Hi).
    assert (i < length ls) by (by eapply lookup_lt_Some).
    rewrite insert_app_r_alt by (rewrite take_length; lia).
    rewrite take_length, Nat.min_l by lia. rewrite Nat.sub_diag. cbn [insert list_insert].
    rewrite !concat_app. cbn. by rewrite Permutation_middle.
Qed.

(** For every number of workers and every range, the batches are consecutive, cover the range exactly
    and there is one per worker; the sequential path is taken exactly when there are fewer elements than
    workers. *)
Theorem C36_batches num_workers work_size :
  0 < num_workers →
  match pf_batches num_workers work_size with
  | None => work_size < num_workers
  | Some bs => num_workers <= work_size ∧ length bs = num_workers ∧ consecutive 0 work_size bs ∧
      Forall (λ r, r.1 < r.2 ∧ r.2 - r.1 < work_size / num_workers + num_workers) bs
  end.
Proof.
  intros Hn. unfold pf_batches. pose proof (Nat.div_mod work_size num_workers ltac:(lia)) as Hdm.
  pose proof (Nat.mod_upper_bound work_size num_workers ltac:(lia)).
  set (q := work_size / num_workers) in *. clearbody q. set (m := work_size mod num_workers) in *. clearbody m.
  case_bool_decide as Hq.
  - assert (q = 0) by lia. nia.
  - split; [nia|]. rewrite pf_loop_length. split; [done|].
    split; [apply pf_loop_consecutive; lia|].
    apply Forall_lookup. intros j r Hj.
    pose proof (pf_loop_sizes num_workers 0 num_workers q work_size 0 j r ltac:(lia) eq_refl Hj) as Hs.
    case_bool_decide.
    + assert (work_size = (num_workers - 1) * q + q + m) by nia. lia.
    + lia.
Qed.

(** Every element of the range reaches the user function exactly once, in every interleaving of the
    tasks, for every number of workers. *)
Theorem C36_each_element_once {A} num_workers (range tr : list A) :
  0 < num_workers → pf_exec num_workers range tr → tr ≡ₚ range.
Proof.
  intros Hn. unfold pf_exec. pose proof (C36_batches num_workers (length range) Hn) as Hb.
  destruct (pf_batches _ _) as [bs|]; [|by intros ->].
  destruct Hb as (_ & _ & Hc & _). intros Ht. apply interleave_perm in Ht. rewrite Ht.
  by rewrite (consecutive_concat _ _ _ Hc).
Qed.

(** The order of the elements within one batch is kept: the trace contains each batch as a
    subsequence. *)
Theorem C36_batch_order {A} num_workers (range tr : list A) bs r :
  pf_batches num_workers (length range) = Some bs → r ∈ bs → pf_exec num_workers range tr →
  sublist (subrange range r) tr.
Proof.
  intros Hbs Hr. unfold pf_exec. rewrite Hbs. intros Ht.
  assert (subrange range r ∈ (subrange range <$> bs)) as Hin by (by apply elem_of_list_fmap_1).
  revert Hin. generalize (subrange range r). clear Hbs Hr. generalize dependent (subrange range <$> bs).
  intros ls Ht. induction Ht as [ls H|ls i x l tr Hi _ IH]; intros k Hk.
  - rewrite Forall_forall in H. rewrite (H _ Hk). done.
  - apply elem_of_list_lookup in Hk as [j Hj]. destruct (decide (i = j)) as [->|Hne].
    + assert (k = x :: l) as -> by congruence. apply sublist_skip. apply IH.
      apply elem_of_list_lookup. exists j. apply list_lookup_insert. by eapply lookup_lt_Some.
    + apply sublist_cons. apply IH. apply elem_of_list_lookup. exists j. by rewrite list_lookup_insert_ne.
Qed.

(** The submitted tasks form one parent with all others as its children. *)
Theorem C36_task_tree n :
  pf_parents (S n) = None :: replicate n (Some 0).
Proof.
  unfold pf_parents. cbn [replicate imap]. f_equal. induction n as [|n IH]; [done|].
  cbn [replicate imap]. f_equal. exact IH.
Qed.

Example C36_example :
  pf_batches 4 10 = Some [(0, 2); (2, 4); (4, 6); (6, 10)] ∧ pf_batches 4 3 = None ∧
  pf_exec 2 [10; 11; 12] [11; 10; 12].
Proof.
  split; [done|]. split; [done|]. unfold pf_exec. cbn.
  apply (interleave_cons _ 1 11 [12]); [done|]. apply (interleave_cons _ 0 10 []); [done|].
  apply (interleave_cons _ 1 12 []); [done|]. constructor. repeat constructor.
Qed.

Print Assumptions C36_batches.
Print Assumptions C36_each_element_once.
Print Assumptions C36_batch_order.
Print Assumptions C36_task_tree.
