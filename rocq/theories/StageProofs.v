(** The stage's greedy loop. *)
From Verif Require Import Base HandlePool SparseMap SparseMapProofs Access AccessProofs ParallelFor Stage.

Section proofs.
Context {A : Type} (pat : A → pattern).
Implicit Types (b ss : list A) (s : A).
Hypothesis Hwf : ∀ s, pat_wf (pat s).

Definition acc_of b : option pattern := foldl (λ o s, p ← o; ap_and p (pat s)) (Some ap_empty) b.
Definition ok b s : Prop := ∃ p, acc_of b = Some p ∧ ap_allows p (pat s) = Some true.

(** The loop as a relation: batch before, systems to look at, batch after, systems left. *)
Inductive greedy : list A → list A → list A → list A → Prop :=
  | g_nil b : greedy b [] b []
  | g_take b s l b' r : ok b s → greedy (b ++ [s]) l b' r → greedy b (s :: l) b' r
  | g_skip b s l b' r : ¬ ok b s → greedy b l b' r → greedy b (s :: l) b' (s :: r).

Lemma acc_of_snoc b s : acc_of (b ++ [s]) = (p ← acc_of b; ap_and p (pat s)).
Proof. unfold acc_of. by rewrite foldl_snoc. Qed.

Lemma acc_of_spec b :
  ∃ p, acc_of b = Some p ∧ pat_wf p ∧
    (ap_reg p = AWrite ↔ ∃ x, x ∈ b ∧ ap_reg (pat x) = AWrite) ∧
    (ap_reg p ≠ ANone ↔ ∃ x, x ∈ b ∧ ap_reg (pat x) ≠ ANone) ∧
    (∀ c, pw p c ↔ ∃ x, x ∈ b ∧ pw (pat x) c) ∧ (∀ c, pr p c ↔ ∃ x, x ∈ b ∧ pr (pat x) c).
Proof.
  induction b as [|s b IH] using rev_ind.
  - exists ap_empty. split; [done|]. split; [apply pat_wf_empty|].
    assert (∀ P : A → Prop, (∃ x, x ∈ [] ∧ P x) ↔ False) as HF.
    { intros P. split; [|done]. intros (x & H & _). by apply elem_of_nil in H. }
    split; [by rewrite HF|]. split; [rewrite HF; naive_solver|]. split; intros c; rewrite HF; unfold pw, pr; cbn.
    + split; [|done]. intros [?|?]; done.
    + split; [|done]. intros [?|[? ?]]; [by destruct H|done].
  - destruct IH as (p & Hp & Hpw & H1 & H2 & H3 & H4). rewrite acc_of_snoc, Hp. cbn [mbind option_bind].
    destruct (ap_and_spec p (pat s) Hpw (Hwf s)) as (r & Hr & Hrw & Hreg & Hw & Hrd & _).
    exists r. split; [done|]. split; [done|].
    assert (∀ P : A → Prop, (∃ x, x ∈ b ++ [s] ∧ P x) ↔ (∃ x, x ∈ b ∧ P x) ∨ P s) as HE.
    { intros P. setoid_rewrite elem_of_app. setoid_rewrite elem_of_list_singleton. naive_solver. }
    rewrite Hreg. split; [by rewrite access_max_write, HE, H1|]. split; [by rewrite access_max_nonone, HE, H2|].
    split; intros c; [by rewrite Hw, HE, H3|by rewrite Hrd, HE, H4].
Qed.

Lemma greedy_acc b ss b' r : greedy b ss b' r → ∃ n, b' = b ++ n ∧ n ++ r ≡ₚ ss ∧ n `sublist_of` ss ∧ r `sublist_of` ss.
Proof.
  induction 1 as [b|b s l b' r _ _ (n & -> & Hp & Hn & Hr)|b s l b' r _ _ (n & -> & Hp & Hn & Hr)].
  - exists []. by rewrite app_nil_r.
  - exists (s :: n). rewrite <- app_assoc. cbn. split; [done|]. split; [by rewrite Hp|]. split; by constructor.
  - exists n. split; [done|]. split; [by rewrite <- Permutation_middle, Hp|]. split; by constructor.
Qed.

Lemma delete_middle (l1 : list A) s l2 : delete (length l1) (l1 ++ s :: l2) = l1 ++ l2.
Proof. by apply delete_middle. Qed.

Lemma stage_pass_greedy fuel kept acc batch todo :
  length todo ≤ fuel → acc_of batch = Some acc →
  ∃ b' r, stage_pass pat fuel (length kept) acc batch (kept ++ todo) = Some (b', kept ++ r) ∧ greedy batch todo b' r.
Proof.
  revert kept acc batch todo. induction fuel as [|fuel IH]; intros kept acc batch todo Hf Hacc.
  - destruct todo; cbn in Hf; [|lia]. exists batch, []. rewrite app_nil_r. cbn.
    rewrite lookup_ge_None_2 by done. split; [done|constructor].
  - destruct todo as [|s todo].
    + exists batch, []. rewrite app_nil_r. cbn. rewrite lookup_ge_None_2 by done. split; [done|constructor].
    + cbn [stage_pass]. rewrite list_lookup_middle by done. cbn in Hf.
      destruct (acc_of_spec batch) as (p & Hp & Hpw & _). assert (p = acc) as -> by congruence.
      destruct (ap_allows_spec acc (pat s) Hpw (Hwf s)) as (b & Hb & _). rewrite Hb. cbn [mbind option_bind].
      destruct b.
      * destruct (ap_and_spec acc (pat s) Hpw (Hwf s)) as (acc' & Hacc' & _). rewrite Hacc'. cbn [mbind option_bind].
        rewrite delete_middle. destruct (IH kept acc' (batch ++ [s]) todo) as (b' & r & E & G); [lia| |].
        { rewrite acc_of_snoc, Hacc. done. }
        exists b', r. split; [done|]. apply g_take; [|done]. by exists acc.
      * destruct (IH (kept ++ [s]) acc batch todo) as (b' & r & E & G); [lia|done|].
        exists b', (s :: r). rewrite app_length in E. cbn in E. rewrite Nat.add_1_r in E. rewrite <- !app_assoc in E. cbn in E.
        split; [done|]. apply g_skip; [|done]. intros (q & Hq & Hq'). congruence.
Qed.

(** The whole loop as a relation. *)
Inductive batched : list A → list (list A) → Prop :=
  | b_nil : batched [] []
  | b_cons s ss b r bs : greedy [] (s :: ss) b r → batched r bs → batched (s :: ss) (b :: bs).

Lemma ok_nil s : ok [] s.
Proof.
  exists ap_empty. split; [done|]. done.
Qed.

Lemma greedy_progress s ss b r : greedy [] (s :: ss) b r → length r ≤ length ss ∧ ∃ n, b = s :: n.
Proof.
  inversion 1 as [|? ? ? ? ? Hok Hg|? ? ? ? ? Hok Hg]; simplify_eq.
  - destruct (greedy_acc _ _ _ _ Hg) as (n & -> & Hp & _). apply Permutation_length in Hp. rewrite app_length in Hp.
    split; [lia|]. by exists n.
  - destruct Hok. apply ok_nil.
Qed.

Lemma stage_batches_spec fuel ss : length ss ≤ fuel → ∃ bs, stage_batches pat fuel ss = Some bs ∧ batched ss bs.
Proof.
  revert ss. induction fuel as [|fuel IH]; intros ss Hf.
  - destruct ss; cbn in Hf; [|lia]. exists []. split; [done|constructor].
  - destruct ss as [|s ss]; [exists []; split; [done|constructor]|].
    cbn [stage_batches]. destruct (stage_pass_greedy (length (s :: ss)) [] ap_empty [] (s :: ss)) as (b & r & E & G); [done|done|].
    rewrite !app_nil_l in E. cbn [length] in E |- *. rewrite E. cbn [mbind option_bind fst snd].
    destruct (greedy_progress _ _ _ _ G) as [Hlen _]. cbn in Hf.
    destruct (IH r) as (bs & -> & Hbs); [lia|]. exists (b :: bs). split; [done|]. by econstructor.
Qed.

Lemma batched_perm ss bs : batched ss bs → concat bs ≡ₚ ss.
Proof.
  induction 1 as [|s ss b r bs G _ IH]; [done|]. cbn. destruct (greedy_acc _ _ _ _ G) as (n & -> & Hp & _).
  cbn. by rewrite IH.
Qed.
Lemma batched_sublist ss bs : batched ss bs → Forall (λ b, b `sublist_of` ss ∧ b ≠ []) bs.
Proof.
  induction 1 as [|s ss b r bs G _ IH]; [constructor|].
  destruct (greedy_progress _ _ _ _ G) as [_ [m Hm]].
  destruct (greedy_acc _ _ _ _ G) as (n & -> & Hp & Hn & Hr). constructor.
  - split; [done|]. by rewrite Hm.
  - eapply Forall_impl; [exact IH|]. intros x [Hx ?]. split; [|done]. by etrans.
Qed.

(** * Systems that do not claim read access to the whole registry *)

Definition conflict (p q : pattern) : Prop := ∃ c, (pw p c ∧ pr q c) ∨ (pr p c ∧ pw q c).
Definition owns s : Prop := ap_reg (pat s) = AWrite.

Hypothesis Hreg : ∀ s, ap_reg (pat s) ≠ ARead.

Lemma ok_iff b s : ok b s ↔ ∀ x, x ∈ b → ¬ owns x ∧ ¬ conflict (pat x) (pat s).
Proof.
  unfold ok. destruct (acc_of_spec b) as (p & Hp & Hpw & HW & HN & Hw & Hr).
  destruct (ap_allows_spec p (pat s) Hpw (Hwf s)) as (v & Hv & Hiff).
  transitivity (v = true).
  { split; [intros (q & Hq & Ha); congruence|]. intros ->. by exists p. }
  rewrite Hiff. split.
  - intros (H1 & H2 & H3) x Hx.
    assert (ap_reg p = ANone) as Hpn.
    { destruct (decide (ap_reg p = ANone)) as [|Hne]; [done|exfalso].
      apply HN in Hne as Hex. destruct Hex as (y & Hy & Hyn).
      assert (ap_reg p = AWrite) as HpW. { apply HW. exists y. split; [done|]. specialize (Hreg y). by destruct (ap_reg (pat y)). }
      destruct (decide (ap_reg (pat s) = ANone)); [by apply H2|by apply H1]. }
    split.
    + intros Ho. assert (ap_reg p = AWrite); [|congruence]. apply HW. by exists x.
    + intros (c & [[Hc1 Hc2]|[Hc1 Hc2]]).
      * assert (pw p c) as [?|Hpc]; [apply Hw; by exists x|congruence|]. by destruct (H3 c AWrite Hpc) as [_ []].
      * assert (pr p c) as [?|[a Hpc]]; [apply Hr; by exists x|done|]. by destruct (H3 c a Hpc) as [[] _].
  - intros H.
    assert (ap_reg p = ANone) as Hpn.
    { destruct (decide (ap_reg p = ANone)) as [|Hne]; [done|exfalso]. apply HN in Hne as (y & Hy & Hyn).
      destruct (H y Hy) as [[] _]. specialize (Hreg y). unfold owns. by destruct (ap_reg (pat y)). }
    split; [naive_solver congruence|]. split; [naive_solver congruence|].
    intros c a Hca. split.
    + intros Hs. assert (pr p c) as (x & Hx & Hxc)%Hr. { right. by eexists. }
      destruct (H x Hx) as [_ []]. exists c. by right.
    + intros -> Hs. assert (pw p c) as (x & Hx & Hxc)%Hw. { by right. }
      destruct (H x Hx) as [_ []]. exists c. by left.
Qed.

Lemma conflict_sym p q : conflict p q → conflict q p.
Proof. intros (c & H). exists c. naive_solver. Qed.

Definition compat s1 s2 : Prop := ¬ owns s1 ∧ ¬ conflict (pat s1) (pat s2).
Lemma greedy_pairwise b ss b' r : greedy b ss b' r →
  (∀ (i j : nat) s1 s2, i < j → b !! i = Some s1 → b !! j = Some s2 → compat s1 s2) →
  (∀ (i j : nat) s1 s2, i < j → b' !! i = Some s1 → b' !! j = Some s2 → compat s1 s2).
Proof.
  induction 1 as [b|b s l b' r Hok _ IH|b s l b' r _ _ IH]; intros Hb; [done| |by apply IH].
  apply IH. intros i j s1 s2 Hij Hi Hj.
  assert (j < length (b ++ [s])) as Hjl by (by apply lookup_lt_Some in Hj). rewrite app_length in Hjl. cbn in Hjl.
  rewrite lookup_app_l in Hi by lia. destruct (decide (j < length b)).
  - rewrite lookup_app_l in Hj by lia. by apply (Hb i j).
  - rewrite lookup_app_r in Hj by lia. replace (j - length b) with 0 in Hj by lia. cbn in Hj. simplify_eq.
    apply (proj1 (ok_iff b s2) Hok). by eapply elem_of_list_lookup_2.
Qed.

Lemma batched_pairwise ss bs : batched ss bs →
  Forall (λ b, ∀ (i j : nat) s1 s2, i < j → b !! i = Some s1 → b !! j = Some s2 → compat s1 s2) bs.
Proof.
  induction 1 as [|s ss b r bs G _ IH]; [constructor|]. constructor; [|done].
  eapply greedy_pairwise; [exact G|]. intros i j s1 s2 _ H. done.
Qed.
End proofs.
