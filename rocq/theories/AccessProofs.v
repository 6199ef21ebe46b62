(** Access patterns denote sets of read and written components. *)
From Verif Require Import Base HandlePool SparseMap SparseMapProofs Access.
Ltac Zify.zify_post_hook ::= Z.div_mod_to_equations.

(** Component ids: below the largest 32-bit value, which the sparse map cannot hold beside all others. *)
Definition id_ok (c : N) : Prop := (c < w32 - 1)%N.

Definition pat_wf (p : pattern) : Prop :=
  sm_wf w32 (ap_comp p) ∧ ∀ c a, sm_abs (ap_comp p) !! c = Some a → id_ok c.
Definition pw (p : pattern) (c : N) : Prop := ap_reg p = AWrite ∨ sm_abs (ap_comp p) !! c = Some AWrite.
Definition pr (p : pattern) (c : N) : Prop := ap_reg p ≠ ANone ∨ is_Some (sm_abs (ap_comp p) !! c).

Lemma w32_pos : (0 < w32)%N.
Proof. done. Qed.

Lemma bounded_length (l : list N) (b : N) : NoDup l → (∀ x, x ∈ l → (x < b)%N) → length l ≤ N.to_nat b.
Proof.
  intros Hnd Hb. rewrite <- (fmap_length N.to_nat l), <- (seq_length (N.to_nat b) 0).
  apply submseteq_length, NoDup_submseteq.
  - by apply (NoDup_fmap_2 _).
  - intros x (y & -> & Hy)%elem_of_list_fmap. apply elem_of_seq. specialize (Hb _ Hy). lia.
Qed.

Lemma room m (k : N) : sm_wf w32 m → (∀ c (a : access), sm_abs m !! c = Some a → id_ok c) →
  id_ok k → sm_abs m !! k = None → (sm_size m + 1 < w32)%N.
Proof.
  intros Hwf Hb Hk Hn. rewrite (swf_size _ _ Hwf).
  assert (length (k :: (sm_dense m).*1) ≤ N.to_nat (w32 - 1)) as H.
  { apply bounded_length.
    - constructor; [by apply (sm_abs_None w32)|apply Hwf].
    - intros x [->|Hx]%elem_of_cons; [done|].
      apply elem_of_list_fmap in Hx as ([c a] & -> & Hx). apply elem_of_list_lookup in Hx as [i Hi].
      apply (Hb c a). apply (sm_abs_Some w32); eauto. }
  cbn [length] in H. rewrite fmap_length in H. pose proof w32_pos. lia.
Qed.

Lemma pat_wf_registry a : pat_wf (ap_registry a).
Proof. split; [by apply sm_wf_init, w32_pos|]. cbn. intros c x H. done. Qed.
Lemma pat_wf_empty : pat_wf ap_empty.
Proof. apply pat_wf_registry. Qed.

Lemma ap_component_spec a c : id_ok c →
  ∃ p, ap_component a c = Some p ∧ pat_wf p ∧ ap_reg p = ANone ∧ sm_abs (ap_comp p) = {[ c := a ]}.
Proof.
  intros Hc. unfold ap_component.
  destruct (sm_emplace_absent w32 (sm_init : smap access) c a) as (m' & -> & Hwf & _ & Habs).
  - by apply sm_wf_init.
  - done.
  - cbn. unfold w32. lia.
  - cbn [mbind option_bind fst]. eexists. split; [done|]. cbn. rewrite Habs. split; [|done]. split; [done|].
    cbn. rewrite Habs. intros c' a'. rewrite sm_abs_init, lookup_insert_Some. intros [[-> _]|[_ H]]; [done|done].
Qed.

Lemma ap_writes_spec p c : pat_wf p → ∃ b, ap_writes p c = Some b ∧ (b = true ↔ pw p c).
Proof.
  intros [Hwf _]. unfold ap_writes, writes_all, pw. case_bool_decide as Hr.
  - exists true. split; [done|]. split; eauto.
  - destruct (sm_abs (ap_comp p) !! c) as [a|] eqn:E.
    + destruct (sm_find_present w32 _ _ _ Hwf E) as (i & -> & Hd & _). cbn [mbind option_bind].
      rewrite Nat2N.id, Hd. cbn [mbind option_bind]. eexists. split; [done|]. rewrite bool_decide_eq_true. cbn.
      split; [intros ->; by right|]. intros [?|?]; congruence.
    + rewrite (sm_find_absent w32 _ _ Hwf E). cbn. exists false. split; [done|]. split; [done|]. intros [?|?]; done.
Qed.

Lemma ap_reads_spec p c : pat_wf p → ∃ b, ap_reads p c = Some b ∧ (b = true ↔ pr p c).
Proof.
  intros [Hwf _]. unfold ap_reads, reads_all, pr. case_bool_decide as Hr.
  - exists true. split; [done|]. split; eauto.
  - destruct (sm_abs (ap_comp p) !! c) as [a|] eqn:E.
    + destruct (sm_find_present w32 _ _ _ Hwf E) as (i & -> & Hd & _). cbn. exists true.
      split; [done|]. split; eauto.
    + rewrite (sm_find_absent w32 _ _ Hwf E). cbn. exists false. split; [done|]. split; [done|].
      intros [?|[? ?]]; [by destruct Hr|done].
Qed.

Lemma allows_loop_spec q l : pat_wf q →
  ∃ b, allows_loop q l = Some b ∧
    (b = true ↔ ∀ c a, (c, a) ∈ l → ¬ pw q c ∧ (a = AWrite → ¬ pr q c)).
Proof.
  intros Hq. induction l as [|[c a] l IH].
  - exists true. split; [done|]. split; [|done]. intros _ c a H. by apply elem_of_nil in H.
  - cbn [allows_loop]. destruct (ap_reads_spec q c Hq) as (br & Er & Hr). destruct (ap_writes_spec q c Hq) as (bw & Ew & Hw).
    destruct IH as (b & El & Hl).
    assert (∃ r, (if bool_decide (a = AWrite) then ap_reads q c else Some false) = Some r ∧ (r = true ↔ a = AWrite ∧ pr q c))
      as (r & -> & Hr').
    { case_bool_decide as Ha; eexists; [rewrite Er|]; (split; [done|]); naive_solver. }
    cbn [mbind option_bind]. destruct r.
    + exists false. split; [done|]. split; [done|]. intros H. destruct (H c a) as [_ H2]; [by left|].
      destruct Hr' as [Hr' _]. destruct Hr' as [? ?]; [done|]. by destruct H2.
    + rewrite Ew. cbn [mbind option_bind]. destruct bw.
      * exists false. split; [done|]. split; [done|]. intros H. destruct (H c a) as [H1 _]; [by left|].
        destruct H1. by apply Hw.
      * exists b. split; [done|]. rewrite Hl. split.
        -- intros H c' a' [Heq|Hin]%elem_of_cons; [|by apply H]. simplify_eq. split; [naive_solver|].
           intros Ha Hp. assert (false = true); [|done]. by apply Hr'.
        -- intros H c' a' Hin. apply H. by right.
Qed.

Lemma dense_elem p c a : pat_wf p → (c, a) ∈ sm_dense (ap_comp p) ↔ sm_abs (ap_comp p) !! c = Some a.
Proof. intros [Hwf _]. rewrite (sm_abs_Some w32) by done. apply elem_of_list_lookup. Qed.

(** The access check in terms of the denotations. *)
Lemma ap_allows_spec p q : pat_wf p → pat_wf q →
  ∃ b, ap_allows p q = Some b ∧
    (b = true ↔
      ¬ (ap_reg p = AWrite ∧ ap_reg q ≠ ANone) ∧ ¬ (ap_reg p ≠ ANone ∧ ap_reg q = ANone) ∧
      ∀ c a, sm_abs (ap_comp p) !! c = Some a → ¬ pw q c ∧ (a = AWrite → ¬ pr q c)).
Proof.
  intros Hp Hq. unfold ap_allows, writes_all, reads_all.
  destruct (allows_loop_spec q (sm_dense (ap_comp p)) Hq) as (b & El & Hl).
  destruct (decide (ap_reg p = AWrite ∧ ap_reg q ≠ ANone)) as [[H1 H2]|Hn1].
  { rewrite !bool_decide_eq_true_2 by (done || (rewrite H1; done)). cbn. exists false. split; [done|]. naive_solver. }
  destruct (decide (ap_reg p ≠ ANone ∧ ap_reg q = ANone)) as [[H1 H2]|Hn2].
  { rewrite (bool_decide_eq_true_2 (ap_reg p ≠ ANone)) by done.
    rewrite (bool_decide_eq_false_2 (ap_reg q ≠ ANone)) by naive_solver. cbn. rewrite orb_true_r.
    exists false. split; [done|]. naive_solver. }
  assert ((bool_decide (ap_reg p = AWrite) && bool_decide (ap_reg q ≠ ANone)) || (bool_decide (ap_reg p ≠ ANone) && negb (bool_decide (ap_reg q ≠ ANone))) = false) as ->.
  { destruct (ap_reg p), (ap_reg q); cbn in *; try done; exfalso; naive_solver. }
  exists b. split; [done|]. rewrite Hl. split.
  - intros H. split; [done|]. split; [done|]. intros c a Hca. apply H. by apply dense_elem.
  - intros (_ & _ & H) c a Hca. apply H. by apply dense_elem.
Qed.

Lemma access_max_none a : access_max a ANone = a.
Proof. by destruct a. Qed.
Lemma access_max_write a b : access_max a b = AWrite ↔ a = AWrite ∨ b = AWrite.
Proof. destruct a, b; naive_solver. Qed.
Lemma access_max_nonone a b : access_max a b ≠ ANone ↔ a ≠ ANone ∨ b ≠ ANone.
Proof. destruct a, b; naive_solver. Qed.

(** Merging adds the accesses of the right side. *)
Lemma and_loop_spec m l : sm_wf w32 m → (∀ c a, sm_abs m !! c = Some a → id_ok c) →
  (∀ c a, (c, a) ∈ l → id_ok c) →
  ∃ m', and_loop m l = Some m' ∧ sm_wf w32 m' ∧ (∀ c a, sm_abs m' !! c = Some a → id_ok c) ∧
    ∀ c, (is_Some (sm_abs m' !! c) ↔ is_Some (sm_abs m !! c) ∨ c ∈ l.*1) ∧
         (sm_abs m' !! c = Some AWrite ↔ sm_abs m !! c = Some AWrite ∨ (c, AWrite) ∈ l).
Proof.
  revert m. induction l as [|[c a] l IH]; intros m Hwf Hid Hl.
  { exists m. split; [done|]. split; [done|]. split; [done|]. intros c. rewrite !elem_of_nil. naive_solver. }
  cbn [and_loop].
  assert (id_ok c) as Hc. { apply (Hl c a). by left. }
  assert (∃ m1 i old, sm_emplace w32 m c ANone = Some (m1, i) ∧ sm_wf w32 m1 ∧ sm_dense m1 !! N.to_nat i.1 = Some (c, old)
     ∧ sm_abs m1 = <[c := old]> (sm_abs m) ∧ old = default ANone (sm_abs m !! c)) as (m1 & i & old & He & Hwf1 & Hd & Habs & Hold).
  { destruct (sm_abs m !! c) as [old|] eqn:E.
    - destruct (sm_emplace_present w32 m c old ANone Hwf E) as (i & He & Hd). exists m, (N.of_nat i, false), old.
      rewrite He. cbn. rewrite Nat2N.id. split; [done|]. split; [done|]. split; [done|]. split; [by rewrite insert_id|done].
    - destruct (sm_emplace_absent w32 m c ANone Hwf E) as (m1 & He & Hwf1 & Hd & Habs); [by eapply room|].
      exists m1, (N.of_nat (length (sm_dense m)), true), ANone. rewrite He. cbn. rewrite Nat2N.id, Hd.
      split; [done|]. split; [done|]. split; [|done]. by rewrite lookup_app_r, Nat.sub_diag. }
  rewrite He. cbn [mbind option_bind fst snd]. rewrite Hd. cbn [mbind option_bind fst snd].
  destruct (sm_assign_spec w32 ANone m1 c (access_max a old) Hwf1) as (m2 & -> & Hwf2 & Habs2).
  { left. rewrite Habs, lookup_insert. by eexists. }
  cbn [mbind option_bind]. rewrite Habs, insert_insert in Habs2.
  destruct (IH m2 Hwf2) as (m' & -> & Hwf' & Hid' & Hm').
  { intros c' a'. rewrite Habs2, lookup_insert_Some. intros [[<- _]|[_ H]]; [done|]. by eapply Hid. }
  { intros c' a' H. apply (Hl c' a'). by right. }
  exists m'. split; [done|]. split; [done|]. split; [done|]. intros c'. destruct (Hm' c') as [H1 H2]. rewrite H1, H2, Habs2.
  destruct (decide (c' = c)) as [->|Hne].
  - rewrite lookup_insert. split.
    + rewrite fmap_cons, elem_of_cons. split; [intros _; right; by left|]. intros _. left. by eexists.
    + rewrite elem_of_cons. rewrite (inj_iff Some), access_max_write. subst old.
      destruct (sm_abs m !! c) as [o|]; cbn; naive_solver.
  - rewrite lookup_insert_ne by done. rewrite fmap_cons, !elem_of_cons. split; naive_solver.
Qed.

Lemma ap_and_spec p q : pat_wf p → pat_wf q →
  ∃ r, ap_and p q = Some r ∧ pat_wf r ∧ ap_reg r = access_max (ap_reg p) (ap_reg q) ∧
    (∀ c, pw r c ↔ pw p c ∨ pw q c) ∧ (∀ c, pr r c ↔ pr p c ∨ pr q c) ∧
    (∀ c, is_Some (sm_abs (ap_comp r) !! c) ↔ is_Some (sm_abs (ap_comp p) !! c) ∨ is_Some (sm_abs (ap_comp q) !! c)).
Proof.
  intros Hp Hq. unfold ap_and.
  destruct (and_loop_spec (ap_comp p) (sm_dense (ap_comp q))) as (m & -> & Hwf & Hid & Hm); [by apply Hp|by apply Hp| |].
  { intros c a H%dense_elem; [|done]. by eapply (proj2 Hq). }
  assert (∀ c, c ∈ (sm_dense (ap_comp q)).*1 ↔ is_Some (sm_abs (ap_comp q) !! c)) as Hd.
  { intros c. rewrite elem_of_list_fmap. split.
    - intros ([c' a] & -> & H%dense_elem); [|done]. by eexists.
    - intros [a H]. exists (c, a). split; [done|]. by apply dense_elem. }
  eexists. split; [done|]. split; [by split|]. cbn. split; [done|]. unfold pw, pr. cbn.
  split; [|split]; intros c; destruct (Hm c) as [H1 H2].
  - rewrite H2, access_max_write, dense_elem by done. naive_solver.
  - rewrite H1, access_max_nonone, Hd. naive_solver.
  - by rewrite H1, Hd.
Qed.
