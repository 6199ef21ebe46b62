(** C86: insertion of values that are stored in the map itself. *)
From Verif Require Import Base Bits HashTable HashTableProofs HashTableMap HashAlias PropHash.
Ltac Zify.zify_post_hook ::= Z.div_mod_to_equations.

Section alias.
Context {K V : Type} `{Countable K}.
Variable hsh : K → N.
Variable dflt : V.

(** Without growth each call does what it does with a copy of the value. *)
Theorem C86_no_growth (t : htab K V) (a i : nat) (k : K) (v : V) (k' : K) (part : V → K) : (N.of_nat (ht_size t) * 1024 ≤ N.of_nat (length (ht_slots t)) * 870)%N →
  at_read (ATab t a) (a, i) = Some (k, v) →
  at_insert hsh false (ATab t a) (a, i) = (λ r, (ATab r.1 a, r.2)) <$> ht_emplace hsh t k v ∧
  at_insert hsh true (ATab t a) (a, i) = (λ r, (ATab r.1 a, r.2)) <$> ht_insert_or_assign hsh t k v ∧
  at_emplace hsh (ATab t a) k' (a, i) = (λ r, (ATab r.1 a, r.2)) <$> ht_emplace hsh t k' v ∧
  at_index hsh dflt part (ATab t a) (a, i) = (λ r, (ATab r.1 a, r.2)) <$> ht_index hsh dflt t (part v).
Proof.
  intros Hs Hr.
  assert (¬ (approx_85_percent (N.of_nat (length (ht_slots t))) < N.of_nat (ht_size t))%N) as Hg.
  { unfold approx_85_percent. rewrite N.shiftr_div_pow2. change (2 ^ 10)%N with 1024%N. lia. }
  assert (at_grow hsh (ATab t a) = Some (ATab t a)) as E1 by (unfold at_grow; cbn [at_tab]; by rewrite decide_False).
  assert (ht_grow hsh t = Some t) as E2 by (unfold ht_grow; by rewrite decide_False).
  unfold at_insert, at_emplace, at_index, ht_emplace, ht_insert_or_assign, ht_index. rewrite E1, Hr. cbn [mbind option_bind at_tab at_arr fst snd].
  rewrite Hr. cbn [mbind option_bind fst snd]. rewrite E2. cbn [mbind option_bind].
  split; [by destruct (ht_insert_raw hsh false t k v)|]. split; [by destruct (ht_insert_raw hsh true t k v)|]. split; [by destruct (ht_insert_raw hsh false t k' v)|].
  destruct (ht_find hsh t (part v)) as [[j|]|]; cbn [mbind option_bind]; [done| |done]. unfold ht_emplace. rewrite E2. cbn [mbind option_bind]. by destruct (ht_insert_raw hsh false t (part v) dflt).
Qed.

Lemma run_wf (os : list (hm_op K V)) t as_ : Forall good_reserve os → hm_run hsh dflt ht_init os = Some (t, as_) →
  ht_wf hsh t ∧ ht_abs t = foldl (hmap_after dflt) ∅ os.
Proof.
  destruct (empty_wf (K := K) (V := V) hsh 16) as [Hwf Habs]; [by exists 4%N|]. change (ht_make 16) with (@ht_init K V) in Hwf, Habs. rewrite <-Habs.
  revert Hwf. generalize (@ht_init K V). clear Habs. intros t0 Hwf Hg. revert t0 as_ Hwf. induction Hg as [|o os Ho Hg IH]; intros t0 as_ Hwf E; cbn [hm_run] in E.
  - simplify_eq. done.
  - destruct (hm_step_refines hsh dflt t0 o Hwf Ho) as (t1 & a & Hs & Hwf1 & Habs & _). rewrite Hs in E. cbn [mbind option_bind fst snd] in E.
    destruct (hm_run hsh dflt t1 os) as [[t2 as2]|] eqn:E2; [|done]. cbn in E. simplify_eq. cbn [foldl]. rewrite <-Habs. by eapply IH.
Qed.

Lemma size_le (t : htab K V) : ht_wf hsh t → ht_size t ≤ length (ht_slots t).
Proof.
  intros [_ Hs]. rewrite Hs. unfold keys, kv, ht_iter, ht_entries. rewrite ?fmap_length.
  clear. induction (ht_slots t) as [|[e|] l IH]; cbn; [done| |]; unfold id in *; lia.
Qed.

(** With growth each call reads freed memory; operator[] only if the key is not in the map. *)
Theorem C86_growth_refuted (os : list (hm_op K V)) (t : htab K V) (as_ : list (hm_out K V)) (a i : nat) (k' : K) (part : V → K) : Forall good_reserve os →
  hm_run hsh dflt ht_init os = Some (t, as_) → (N.of_nat (length (ht_slots t)) * 870 < N.of_nat (ht_size t) * 1024)%N →
  (∀ asg, at_insert hsh asg (ATab t a) (a, i) = None) ∧
  at_emplace hsh (ATab t a) k' (a, i) = None ∧
  (∀ k v, at_read (ATab t a) (a, i) = Some (k, v) → foldl (hmap_after dflt) ∅ os !! part v = None → at_index hsh dflt part (ATab t a) (a, i) = None).
Proof.
  intros Hos Hrun Hs. destruct (run_wf os t as_ Hos Hrun) as [Hwf Habs]. pose proof (size_le t Hwf) as Hle.
  assert (∃ t1, at_grow hsh (ATab t a) = Some (ATab t1 (S a))) as [t1 Eg].
  { unfold at_grow, at_reserve. cbn [at_tab at_arr]. rewrite decide_True. 2:{ unfold approx_85_percent. rewrite N.shiftr_div_pow2. change (2 ^ 10)%N with 1024%N. lia. }
    rewrite N.shiftl_mul_pow2. rewrite decide_False by lia.
    destruct (reserve_spec hsh t (N.to_nat (N.of_nat (length (ht_slots t)) * 2 ^ 1)) Hwf) as (t1 & -> & _).
    { destruct (wf_pow _ _ (proj1 Hwf)) as [b Hb]. exists (N.succ b). rewrite N2Nat.id, Hb, N.pow_succ_r'. lia. }
    exists t1. done. }
  assert (at_read (ATab t1 (S a)) (a, i) = None) as Er. { unfold at_read. cbn [at_arr fst]. rewrite decide_False; [done|lia]. }
  unfold at_insert, at_emplace. rewrite Eg. cbn [mbind option_bind]. rewrite Er. split; [done|]. split; [done|].
  intros k v Hr Hk. unfold at_index. rewrite Hr. cbn [mbind option_bind at_tab snd]. rewrite (find_None hsh t (part v) Hwf) by (by rewrite Habs). cbn [mbind option_bind].
  rewrite Eg. cbn [mbind option_bind]. by rewrite Er.
Qed.

(** The first time is when 14 elements are in the 16 buckets of a fresh map, for every hash function. *)
Lemma insert_loop_length asg f h : ∀ (sl : list (option (hent K V))) t i r sl' q, insert_loop asg f sl h t i r = Some (sl', q) → length sl' = length sl.
Proof.
  induction f as [|f IH]; intros sl t i r sl' q E; [done|]. cbn [insert_loop] in E. destruct (sl !! i) as [[e|]|]; cbn [mbind option_bind] in E; [| |done].
  - destruct (e_match e h (he_key t)); [destruct asg; simplify_eq; by rewrite ?insert_length|]. case_decide; apply IH in E; by rewrite ?insert_length in E.
  - simplify_eq. by rewrite insert_length.
Qed.
Lemma first_growth (l : list (K * V)) : ∀ t, NoDup l.*1 → ht_wf hsh t → (∀ k, k ∈ l.*1 → ht_abs t !! k = None) → length (ht_slots t) = 16 → ht_size t + length l ≤ 14 →
  ∃ t' as_, hm_run hsh dflt t ((λ kv, HmEmplace kv.1 kv.2) <$> l) = Some (t', as_) ∧ length (ht_slots t') = 16 ∧ ht_size t' = ht_size t + length l.
Proof.
  induction l as [|[k v] l IH]; intros t Hnd Hwf Hk Hl Hs; [exists t, []; cbn [length]; split; [done|]; split; [done|lia]|].
  cbn [fmap list_fmap fst length] in *. apply NoDup_cons in Hnd as [Hnk Hnd].
  destruct (hm_step_refines hsh dflt t (HmEmplace k v) Hwf I) as (t1 & a & E & Hwf1 & Habs & _).
  cbn [hmap_after] in Habs. rewrite Hk in Habs by (by left).
  assert (ht_size t1 = S (ht_size t)) as Hsz. { rewrite (size_spec hsh t1 Hwf1), (size_spec hsh t Hwf), Habs, map_size_insert, Hk by (by left). done. }
  assert (length (ht_slots t1) = 16) as Hl1.
  { cbn [hm_step] in E. unfold ht_emplace, ht_grow in E. rewrite decide_False in E. 2:{ rewrite Hl. vm_compute (approx_85_percent _). lia. }
    cbn [mbind option_bind] in E. unfold ht_insert_raw in E. destruct (insert_loop _ _ _ _ _ _ _) as [[sl' q]|] eqn:El; [|done]. cbn [mbind option_bind fst snd] in E.
    destruct (ht_deref _ _); [|done]. cbn in E. simplify_eq. cbn [ht_slots]. by rewrite (insert_loop_length _ _ _ _ _ _ _ _ _ El). }
  destruct (IH t1 Hnd Hwf1) as (t' & as_ & Er & Hl' & Hs'); [|done|lia|].
  { intros k2 Hk2. rewrite Habs, lookup_insert_ne by (intros ->; done). apply Hk. by right. }
  exists t', (a :: as_). cbn [hm_run fst snd]. cbn [fst snd] in E. rewrite E. cbn [mbind option_bind fst snd]. rewrite Er. split; [done|]. split; [done|lia].
Qed.

Theorem C86_fourteen_refuted (l : list (K * V)) (i : nat) : NoDup l.*1 → length l = 14 →
  ∃ t as_, hm_run hsh dflt ht_init ((λ kv, HmEmplace kv.1 kv.2) <$> l) = Some (t, as_) ∧ at_insert hsh false (ATab t 0) (0, i) = None.
Proof.
  intros Hnd Hl. destruct (empty_wf (K := K) (V := V) hsh 16) as [Hwf Habs]; [by exists 4%N|]. change (ht_make 16) with (@ht_init K V) in Hwf, Habs.
  destruct (first_growth l ht_init Hnd Hwf) as (t & as_ & E & Hlt & Hst); [by intros; rewrite Habs|done|cbn; lia|].
  exists t, as_. split; [done|].
  destruct (l !! 0) as [[k v]|] eqn:El. 2:{ apply lookup_ge_None in El. lia. }
  eapply (C86_growth_refuted _ t as_ 0 i k (λ _, k)); [|exact E|].
  - apply Forall_fmap, Forall_true. by intros [].
  - rewrite Hlt, Hst, Hl. cbn. lia.
Qed.
End alias.

(** Thirteen elements, then an insertion of the first one again; fourteen. *)
Definition keys_to (n : nat) : list (hm_op N N) := (λ k, HmEmplace (N.of_nat k) (N.of_nat k + 100)%N) <$> seq 0 n.
Definition again (n i : nat) : option (nat * bool) :=
  r ← hm_run (λ k, k) 0%N ht_init (keys_to n); snd <$> at_insert (λ k, k) false (ATab r.1 0) (0, i).
Example ex_C86_runs : again 13 0 = Some (0, false) ∧ again 14 0 = None.
Proof. by vm_compute. Qed.
Example ex_C86_hyps : ∃ t, (fst <$> hm_run (λ k, k) 0%N ht_init (keys_to 13)) = Some t ∧ (N.of_nat (ht_size t) * 1024 ≤ N.of_nat (length (ht_slots t)) * 870)%N ∧
  at_read (ATab t 0) (0, 3) = Some (3%N, 103%N).
Proof. eexists. split; [vm_compute; reflexivity|]. by vm_compute. Qed.
Example ex_C86_growth_hyps : Forall good_reserve (keys_to 14) ∧ ∃ t as_, hm_run (λ k, k) 0%N ht_init (keys_to 14) = Some (t, as_) ∧
  (N.of_nat (length (ht_slots t)) * 870 < N.of_nat (ht_size t) * 1024)%N ∧ at_read (ATab t 0) (0, 3) = Some (3%N, 103%N) ∧
  foldl (hmap_after 0%N) ∅ (keys_to 14) !! 103%N = None.
Proof.
  split; [apply Forall_fmap, Forall_true; done|]. eexists _, _. split; [vm_compute; reflexivity|]. split; [by vm_compute|]. split; by vm_compute.
Qed.

Print Assumptions C86_no_growth.
Print Assumptions C86_growth_refuted.
Print Assumptions C86_fourteen_refuted.
