(** C40: what happens with a number of buckets that is not a power of two. *)
From Verif Require Import Base Bits HashTable HashTableProofs HashTableMap HashLoop PropHash.
Ltac Zify.zify_post_hook ::= Z.div_mod_to_equations.

(** The buckets that mod_2n can give for [n] buckets. *)
Definition usable (n i : nat) : Prop := (i < n)%nat ∧ N.land (N.of_nat i) (N.of_nat n - 1) = N.of_nat i.
Global Instance usable_dec n i : Decision (usable n i) := _.
Definition uslots (n : nat) : list nat := filter (usable n) (seq 0 n).

Lemma land_le_r a b : (N.land a b ≤ b)%N.
Proof. apply N.ldiff_le. apply N.bits_inj_0. intros x. rewrite N.ldiff_spec, N.land_spec. by destruct (N.testbit a x), (N.testbit b x). Qed.

Lemma idx_usable v n : 0 < n → usable n (ht_idx v n).
Proof.
  intros Hn. unfold ht_idx, mod_2n. rewrite decide_False by lia. pose proof (land_le_r v (N.of_nat n - 1)). split; [lia|].
  rewrite N2Nat.id. by rewrite <-N.land_assoc, N.land_diag.
Qed.
Lemma next_usable i n : 0 < n → usable n (ht_next i n).
Proof. apply idx_usable. Qed.

Lemma elem_uslots n i : i ∈ uslots n ↔ usable n i.
Proof. unfold uslots. rewrite elem_of_list_filter, elem_of_seq. unfold usable. intuition lia. Qed.
Lemma uslots_nodup n : NoDup (uslots n).
Proof. apply NoDup_filter, NoDup_seq. Qed.
Lemma uslots_le n : length (uslots n) ≤ n.
Proof. etrans; [apply submseteq_length, NoDup_submseteq|by rewrite (seq_length n 0)]; [apply uslots_nodup|]. intros i. rewrite elem_uslots, elem_of_seq. unfold usable. lia. Qed.

Lemma uslots_split n b d : n = 2 ^ b + d → 0 < d → d < 2 ^ b → length (uslots n) ≤ 2 * length (uslots d).
Proof.
  intros -> Hd Hb. transitivity (length (uslots d ++ (Nat.add (2 ^ b) <$> uslots d))).
  2:{ rewrite app_length, fmap_length. lia. }
  apply submseteq_length, NoDup_submseteq; [apply uslots_nodup|]. intros i Hi. rewrite elem_uslots in Hi. destruct Hi as [Hi Hl].
  assert (usable d (i mod 2 ^ b)) as Hy.
  { assert (N.land (N.of_nat (i mod 2 ^ b)) (N.of_nat d - 1) = N.of_nat (i mod 2 ^ b)) as Hm.
    { replace (N.of_nat d - 1)%N with ((N.of_nat (2 ^ b + d) - 1) mod 2 ^ N.of_nat b)%N.
      2:{ replace (N.of_nat (2 ^ b + d) - 1)%N with ((N.of_nat d - 1) + 1 * 2 ^ N.of_nat b)%N. 2:{ rewrite Nat2N.inj_add, Nat2N.inj_pow. lia. }
          rewrite N.mod_add by (apply N.pow_nonzero; done). apply N.mod_small. change 2%N with (N.of_nat 2). rewrite <-Nat2N.inj_pow. lia. }
      rewrite Nat2N.inj_mod, Nat2N.inj_pow. change (N.of_nat 2) with 2%N. rewrite <-!N.land_ones. rewrite <-Hl at 2. apply N.bits_inj. intros x. rewrite !N.land_spec.
      by destruct (N.testbit (N.of_nat i) x), (N.testbit (N.of_nat (2 ^ b + d) - 1) x), (N.testbit (N.ones (N.of_nat b)) x). }
    split; [|done]. pose proof (land_le_r (N.of_nat (i mod 2 ^ b)) (N.of_nat d - 1)). rewrite Hm in H. lia. }
  apply elem_of_app. pose proof (Nat.div_mod i (2 ^ b) ltac:(lia)) as E.
  assert (i / 2 ^ b = 0 ∨ i / 2 ^ b = 1) as [E0|E0].
  { assert (i / 2 ^ b < 2) as H by (apply Nat.div_lt_upper_bound; lia). revert H. generalize (i / 2 ^ b). clear. lia. }
  - left. rewrite elem_uslots. rewrite E0, Nat.mul_0_r in E. cbn [Nat.add] in E. by rewrite E.
  - right. apply elem_of_list_fmap. exists (i mod 2 ^ b). rewrite elem_uslots. split; [|done]. rewrite E0, Nat.mul_1_r in E. exact E.
Qed.

Lemma pow2_of_nat b : pow2 (N.of_nat (2 ^ b)).
Proof. exists (N.of_nat b). by rewrite Nat2N.inj_pow. Qed.

(** At most two thirds of the buckets can be used. *)
Lemma uslots_bound n : 0 < n → ¬ pow2 (N.of_nat n) → 3 * length (uslots n) ≤ 2 * n.
Proof.
  induction (lt_wf n) as [n _ IH]. intros Hn Hp.
  destruct (Nat.log2_spec n Hn) as [H1 H2]. set (b := Nat.log2 n) in *.
  assert (n ≠ 2 ^ b) by (intros E; apply Hp; rewrite E; apply pow2_of_nat).
  cbn [Nat.pow] in H2. pose proof (uslots_split n b (n - 2 ^ b) ltac:(lia) ltac:(lia) ltac:(lia)) as Hs. set (d := n - 2 ^ b) in *.
  assert (0 < 2 ^ b) by lia.
  destruct (decide (d = 2 ^ Nat.log2 d)) as [E|E].
  - assert (Nat.log2 d < b) as Hlt. { apply (Nat.pow_lt_mono_r_iff 2); lia. }
    assert (2 * d ≤ 2 ^ b). { rewrite E. change (2 * 2 ^ Nat.log2 d) with (2 ^ S (Nat.log2 d)). apply Nat.pow_le_mono_r; lia. }
    pose proof (uslots_le d). lia.
  - assert (¬ pow2 (N.of_nat d)) as Hd.
    { intros [k Hk]. apply E. assert (d = 2 ^ N.to_nat k) as ->. { apply Nat2N.inj. rewrite Hk, Nat2N.inj_pow. by rewrite N2Nat.id. } by rewrite Nat.log2_pow2 by lia. }
    pose proof (IH d ltac:(lia) ltac:(lia) Hd). lia.
Qed.

Lemma pigeonhole (l l2 : list nat) : l ⊆ l2 → length l2 < length l → ∃ a b x, a < b ∧ l !! a = Some x ∧ l !! b = Some x.
Proof.
  intros Hs Hl. assert (¬ NoDup l) as Hd. { intros Hd. pose proof (submseteq_length _ _ (NoDup_submseteq _ _ Hd Hs)). lia. }
  clear Hs Hl. induction l as [|x l IH]; [destruct Hd; constructor|]. destruct (decide (x ∈ l)) as [Hx|Hx].
  - apply elem_of_list_lookup in Hx as [i Hi]. exists 0, (S i), x. split; [lia|done].
  - destruct IH as (a & b & y & ? & ? & ?). { intros Hn. apply Hd. by constructor. } exists (S a), (S b), y. split; [lia|done].
Qed.

Lemma filter_same (P Q : nat → Prop) `{∀ x, Decision (P x), ∀ x, Decision (Q x)} (l : list nat) : (∀ x, x ∈ l → P x ↔ Q x) → filter P l = filter Q l.
Proof.
  induction l as [|x l IH]; intros Hl; [done|]. rewrite !filter_cons. rewrite IH by (intros y Hy; apply Hl; by right).
  destruct (Hl x) as [H1 H2]; [by left|]. repeat case_decide; tauto || done.
Qed.

Section loop.
Context {K V : Type} `{Countable K}.
Variable hsh : K → N.
Implicit Types sl : list (option (hent K V)).

(** Where the loop looks after [f] iterations. *)
Fixpoint orb (n f i : nat) : nat := match f with 0 => i | S f => orb n f (ht_next i n) end.
Lemma orb_add n f g i : orb n (f + g) i = orb n g (orb n f i).
Proof. revert i. induction f as [|f IH]; intros i; cbn [orb Nat.add]; [done|apply IH]. Qed.
Lemma orb_usable n f i : 0 < n → usable n i → usable n (orb n f i).
Proof. intros Hn. revert i. induction f as [|f IH]; intros i Hi; cbn [orb]; [done|]. apply IH. by apply next_usable. Qed.

Lemma orb_repeats n i : 0 < n → usable n i → ∀ f, ∃ g, g ≤ n ∧ orb n f i = orb n g i.
Proof.
  intros Hn Hi. destruct (pigeonhole ((λ f, orb n f i) <$> seq 0 (S n)) (seq 0 n)) as (a & b & x & Hab & Ha & Hb).
  { intros x (f & -> & _)%elem_of_list_fmap. apply elem_of_seq. destruct (orb_usable n f i Hn Hi). lia. }
  { rewrite fmap_length, !seq_length. lia. }
  rewrite list_lookup_fmap in Ha, Hb. apply fmap_Some in Ha as (a' & Ha & ->). apply fmap_Some in Hb as (b' & Hb & Hx).
  apply lookup_seq in Ha as [-> Ha]. apply lookup_seq in Hb as [-> Hb]. cbn [Nat.add] in Hx.
  induction f as [f IH] using lt_wf_ind. destruct (decide (f ≤ n)) as [Hf|Hf]; [by exists f|].
  destruct (IH (a + (f - b))) as (g & Hg & E); [lia|]. exists g. split; [done|]. rewrite <-E.
  replace f with (b + (f - b)) at 1 by lia. by rewrite !orb_add, Hx.
Qed.

Definition occ sl i : Prop := ∃ e, sl !! i = Some (Some e).

Lemma keys_swap sl i e t : sl !! i = Some (Some e) → he_key e :: keys (<[i := Some t]> sl) ≡ₚ he_key t :: keys sl.
Proof.
  intros Hi. pose proof (kv_insert sl i (Some e) (Some t) Hi) as Hp. apply (fmap_Permutation fst) in Hp. cbn in Hp. unfold keys.
  first [exact Hp | symmetry; exact Hp].
Qed.

(** While all buckets on the way are occupied the loop goes on, and the buckets that are occupied stay the same. *)
Lemma walk f h : ∀ sl t i r, NoDup (he_key t :: keys sl) → (∀ g, g < f → occ sl (orb (length sl) g i)) → (∀ x, r = Some x → occ sl x) →
  ∃ sl' t' r', ins_steps f h (sl, t, i, r) = Some (inl (sl', t', orb (length sl) f i, r')) ∧ length sl' = length sl ∧
    he_key t' :: keys sl' ≡ₚ he_key t :: keys sl ∧ (∀ j, occ sl' j ↔ occ sl j) ∧ (∀ x, r' = Some x → occ sl x).
Proof.
  induction f as [|f IH]; intros sl t i r Hnd Hocc Hr; [by exists sl, t, r|].
  destruct (Hocc 0 ltac:(lia)) as [e He]. cbn [orb] in He. cbn [ins_steps ins_step orb]. rewrite He.
  assert (e_match e h (he_key t) = false) as ->.
  { unfold e_match. rewrite (bool_decide_eq_false_2 (he_key e = he_key t)); [by rewrite andb_false_r|].
    intros E. apply NoDup_cons in Hnd as [Hnd _]. apply Hnd. rewrite <-E. by eapply keys_elem. }
  case_decide as Hpsl.
  - assert (∀ j, occ (<[i := Some t]> sl) j ↔ occ sl j) as Hsame.
    { intros j. unfold occ. destruct (decide (i = j)) as [<-|Hij].
      - rewrite list_lookup_insert by (by eapply lookup_lt_Some). split; intros _; eauto.
      - by rewrite list_lookup_insert_ne. }
    pose proof (keys_swap sl i e t He) as Hk.
    destruct (IH (<[i := Some t]> sl) (e_inc e) (ht_next i (length sl)) (Some (default i r))) as (sl' & t' & r' & E & Hl & Hp & Ho & Hr').
    { cbn [he_key e_inc]. by rewrite Hk. }
    { intros g Hg. rewrite insert_length. apply Hsame. apply (Hocc (S g)). lia. }
    { intros x [= <-]. apply Hsame. destruct r as [y|]; cbn [default]; [by apply Hr|]. by exists e. }
    rewrite insert_length in E, Hl. exists sl', t', r'. split; [exact E|]. split; [done|]. split; [rewrite Hp; exact Hk|]. split.
    + intros j. by rewrite Ho.
    + intros x Hx. apply Hsame. by apply Hr'.
  - destruct (IH sl (e_inc t) (ht_next i (length sl)) r) as (sl' & t' & r' & E & Hl & Hp & Ho & Hr'); [done| |done|].
    { intros g Hg. apply (Hocc (S g)). lia. }
    by exists sl', t', r'.
Qed.

Lemma steps_snoc f h (s s' : ins_state (K := K) (V := V)) : ins_steps f h s = Some (inl s') → ins_steps (S f) h s = ins_step h s'.
Proof.
  revert s. induction f as [|f IH]; intros s E.
  - cbn [ins_steps] in *. injection E as ->. by destruct (ins_step h s') as [[?|?]|].
  - change (ins_steps (S f) h s) with (match ins_step h s with Some (inl s2) => ins_steps f h s2 | x => x end) in E.
    change (ins_steps (S (S f)) h s) with (match ins_step h s with Some (inl s2) => ins_steps (S f) h s2 | x => x end).
    destruct (ins_step h s) as [[s2|?]|]; [by apply IH|done|done].
Qed.

(** The loop with fuel is the iteration. *)
Lemma loop_steps f h : ∀ sl t i r, insert_loop false f sl h t i r = match ins_steps f h (sl, t, i, r) with Some (inr q) => Some q | _ => None end.
Proof.
  induction f as [|f IH]; intros sl t i r; [done|]. cbn [insert_loop ins_steps ins_step].
  destruct (sl !! i) as [[e|]|]; cbn [mbind option_bind]; [|done|done].
  destruct (e_match e h (he_key t)); [done|]. case_decide; apply IH.
Qed.

Lemma not_occ sl i : i < length sl → ¬ occ sl i → sl !! i = Some None.
Proof. intros Hi Ho. destruct (lookup_lt_is_Some_2 _ _ Hi) as [[e|] E]; [|done]. destruct Ho. by exists e. Qed.
Global Instance occ_dec sl i : Decision (occ sl i).
Proof. unfold occ. destruct (sl !! i) as [[e|]|]; [left; eauto|right|right]; by intros [? ?]. Defined.

(** Insertion of a new key: either it returns after at most [length sl + 1] iterations or never. *)
Lemma insert_new h sl t i : NoDup (he_key t :: keys sl) → (∀ j, occ sl j → usable (length sl) j) → usable (length sl) i →
  never_returns h (sl, t, i, None) ∨
  ∃ sl' j, insert_loop false (S (length sl)) sl h t i None = Some (sl', (j, true)) ∧ length sl' = length sl ∧ keys sl' ≡ₚ he_key t :: keys sl ∧
    (∀ x, occ sl' x → usable (length sl) x) ∧ occ sl' j.
Proof.
  intros Hnd Hu Hi. set (n := length sl). assert (0 < n) as Hn by (destruct Hi; subst n; lia).
  destruct (decide (Forall (λ g, occ sl (orb n g i)) (seq 0 (S n)))) as [Ha|Ha].
  - left. intros f. destruct (walk f h sl t i None Hnd) as (sl' & t' & r' & E & _); [|done|eauto].
    intros g _. fold n. destruct (orb_repeats n i Hn Hi g) as (g' & Hg' & ->). rewrite Forall_forall in Ha. apply Ha. apply elem_of_seq. lia.
  - right. assert (∃ g, g ≤ n ∧ ¬ occ sl (orb n g i) ∧ ∀ g', g' < g → occ sl (orb n g' i)) as (g & Hg & Hfree & Hmin).
    { apply not_Forall_Exists, Exists_exists in Ha; [|apply _]. destruct Ha as (g & Hg & Hng). apply elem_of_seq in Hg. cbn beta in Hng.
      revert Hg Hng. induction g as [g IH] using lt_wf_ind. intros Hg Hng.
      destruct (decide (Forall (λ g', occ sl (orb n g' i)) (seq 0 g))) as [Hf|Hf].
      - exists g. split; [lia|]. split; [done|]. intros g' Hg'. rewrite Forall_forall in Hf. apply Hf. apply elem_of_seq. lia.
      - apply not_Forall_Exists, Exists_exists in Hf; [|apply _]. destruct Hf as (g' & Hg' & Hng'). apply elem_of_seq in Hg'. apply (IH g'); [lia|lia|done]. }
    destruct (walk g h sl t i None Hnd Hmin) as (sl' & t' & r' & E & Hl & Hp & Ho & Hr'); [done|].
    pose proof (orb_usable n g i Hn Hi) as Hug. fold n in E, Hl. set (x := orb n g i) in *.
    assert (sl' !! x = Some None) as Hx. { apply not_occ; [rewrite Hl; apply Hug|]. by rewrite Ho. }
    exists (<[x := Some t']> sl'), (default x r').
    assert (insert_loop false (S g) sl h t i None = Some (<[x := Some t']> sl', (default x r', true))) as Es.
    { rewrite loop_steps, (steps_snoc _ _ _ _ E). cbn [ins_step]. by rewrite Hx. }
    split.
    { rewrite loop_steps in Es |- *. fold n. destruct (ins_steps (S g) h (sl, t, i, None)) as [[?|q]|] eqn:Eg; [done| |done].
      assert (∀ d, ins_steps (S g + d) h (sl, t, i, None) = Some (inr q)) as Hd.
      { revert Eg. generalize (S g) (sl, t, i, @None nat). clear. intros m s Eg d. revert s Eg. induction m as [|m IH]; intros s Eg; [done|].
        cbn [ins_steps Nat.add] in *. destruct (ins_step h s) as [[s2|?]|]; [by apply IH|done|done]. }
      replace (S n) with (S g + (n - g)) by lia. by rewrite Hd. }
    split; [by rewrite insert_length|]. split.
    { rewrite <-Hp. pose proof (kv_insert sl' x None (Some t') Hx) as Hk. apply (fmap_Permutation fst) in Hk. cbn in Hk. unfold keys. first [exact Hk | symmetry; exact Hk]. }
    assert (∀ j, occ (<[x := Some t']> sl') j ↔ j = x ∨ occ sl j) as Hocc.
    { intros j. rewrite <-Ho. unfold occ. destruct (decide (x = j)) as [<-|Hxj].
      - rewrite list_lookup_insert by (rewrite Hl; apply Hug). split; [by left|]. intros _. eauto.
      - rewrite list_lookup_insert_ne by done. split; [by right|]. by intros [?|?]. }
    split.
    + intros y Hy. apply Hocc in Hy as [->|Hy]; [done|]. by apply Hu.
    + apply Hocc. destruct r' as [y|]; cbn [default]; [right; by apply Hr'|by left].
Qed.

(** Tables with [n] buckets, of which only usable ones hold something. *)
Record limited (n : nat) (t : htab K V) : Prop := {
  li_len : length (ht_slots t) = n;
  li_occ : ∀ i, occ (ht_slots t) i → usable n i;
  li_nd : NoDup (keys (ht_slots t));
  li_size : ht_size t = length (keys (ht_slots t)) }.

Lemma keys_length sl : length (keys sl) = length (filter (occ sl) (seq 0 (length sl))).
Proof.
  unfold keys, kv. rewrite !fmap_length. induction sl as [|o sl IH] using rev_ind; [done|].
  rewrite omap_app, app_length, app_length, seq_app, filter_app, app_length, IH. f_equal.
  - f_equal. apply filter_same. intros x Hx. apply elem_of_seq in Hx. unfold occ. by rewrite lookup_app_l by lia.
  - cbn [seq Nat.add length]. rewrite filter_cons, filter_nil. destruct o as [e|]; cbn.
    + rewrite decide_True; [done|]. exists e. by rewrite lookup_app_r, Nat.sub_diag by lia.
    + rewrite decide_False; [done|]. intros [e He]. by rewrite lookup_app_r, Nat.sub_diag in He by lia.
Qed.

Lemma limited_size n t : limited n t → ht_size t ≤ length (uslots n).
Proof.
  intros [Hl Ho _ Hs]. rewrite Hs, keys_length, Hl. apply submseteq_length, NoDup_submseteq; [apply NoDup_filter, NoDup_seq|].
  intros i [Hi _]%elem_of_list_filter. rewrite elem_uslots. by apply Ho.
Qed.

Lemma limited_no_growth n t : limited n t → 0 < n → ¬ pow2 (N.of_nat n) → ht_grow hsh t = Some t.
Proof.
  intros Ht Hn Hp. unfold ht_grow. rewrite decide_False; [done|]. pose proof (limited_size n t Ht). pose proof (uslots_bound n Hn Hp).
  rewrite (li_len _ _ Ht). unfold approx_85_percent. rewrite N.shiftr_div_pow2. change (2 ^ 10)%N with 1024%N. lia.
Qed.

Lemma limited_step n t k v : limited n t → 0 < n → ¬ pow2 (N.of_nat n) → k ∉ keys (ht_slots t) →
  never_returns (hsh k) (ht_slots t, HEnt (hsh k) 0 k v, ht_idx (hsh k) n, None) ∨
  ∃ t' j w, ht_emplace hsh t k v = Some (t', (j, true)) ∧ ht_deref t' j = Some w ∧ limited n t' ∧ keys (ht_slots t') ≡ₚ k :: keys (ht_slots t).
Proof.
  intros Ht Hn Hp Hk. pose proof Ht as [Hl Ho Hnd Hs]. 
  destruct (insert_new (hsh k) (ht_slots t) (HEnt (hsh k) 0 k v) (ht_idx (hsh k) n)) as [Hnr|(sl' & j & E & Hl' & Hp' & Ho' & Hj)].
  - by constructor.
  - by rewrite Hl.
  - rewrite Hl. by apply idx_usable.
  - by left.
  - right. rewrite Hl in Hl', E, Ho'. destruct Hj as [e He]. exists (HTab sl' (S (ht_size t))), j, (he_val e).
    unfold ht_emplace. rewrite (limited_no_growth n t) by done. cbn [mbind option_bind]. unfold ht_insert_raw. rewrite Hl, E. cbn [mbind option_bind fst snd].
    split; [done|]. split; [unfold ht_deref; cbn [ht_slots]; by rewrite He|]. split; [|done].
    constructor; cbn [ht_slots ht_size]; [done|done|rewrite Hp'; by constructor|]. rewrite Hp'. cbn [length he_key]. by rewrite Hs.
Qed.
End loop.

(** C40.  After reserve(n) on a fresh map, with [n] not a power of two: whatever the hash function, of every 2n/3 + 1 insertions of
    different keys one never returns (growth, which comes with 0.85 n elements, is not reached). *)
Lemma insert_until {K V : Type} `{Countable K} (hsh : K → N) (dflt : V) n (l : list (K * V)) : ∀ t, limited n t → 0 < n → ¬ pow2 (N.of_nat n) →
  NoDup (l.*1 ++ keys (ht_slots t)) → 2 * n < 3 * (length l + ht_size t) →
  ∃ l1 k v l2 t' as_, l = l1 ++ (k, v) :: l2 ∧ hm_run hsh dflt t ((λ kv, HmEmplace kv.1 kv.2) <$> l1) = Some (t', as_) ∧ limited n t' ∧
    never_returns (hsh k) (ht_slots t', HEnt (hsh k) 0 k v, ht_idx (hsh k) n, None).
Proof.
  induction l as [|[k v] l IH]; intros t Ht Hn Hp Hnd Hlen.
  - pose proof (limited_size n t Ht). pose proof (uslots_bound n Hn Hp). cbn [length] in Hlen. lia.
  - cbn [fmap list_fmap fst app] in Hnd. apply NoDup_cons in Hnd as [Hk Hnd].
    destruct (limited_step hsh n t k v Ht Hn Hp) as [Hnr|(t1 & j & w & E & Hd & Ht1 & Hp1)].
    { intros Hin. apply Hk. apply elem_of_app. by right. }
    + exists [], k, v, l, t, []. done.
    + destruct (IH t1 Ht1 Hn Hp) as (l1 & k' & v' & l2 & t' & as_ & -> & Er & Hl & Hnr).
      { rewrite Hp1. rewrite <-Permutation_middle. by constructor. }
      { rewrite (li_size _ _ Ht1), Hp1. cbn [length] in *. rewrite <-(li_size _ _ Ht). lia. }
      exists ((k, v) :: l1), k', v', l2, t', (HmPair w true :: as_). split; [done|]. split; [|done].
      cbn [fmap list_fmap hm_run hm_step fst snd]. rewrite E. cbn [mbind option_bind fst snd]. rewrite Hd. cbn [mbind option_bind fst snd].
      cbn [fmap list_fmap] in Er. rewrite Er. done.
Qed.

Theorem C40_not_power_refuted {K V : Type} `{Countable K} (hsh : K → N) (dflt : V) (n : nat) (l : list (K * V)) : 0 < n → ¬ (∃ b, n = 2 ^ b) →
  NoDup l.*1 → 2 * n < 3 * length l →
  ∃ l1 k v l2 t as_, l = l1 ++ (k, v) :: l2 ∧
    hm_run hsh dflt ht_init (HmReserve n :: ((λ kv, HmEmplace kv.1 kv.2) <$> l1)) = Some (t, as_) ∧
    length (ht_slots t) = n ∧ ht_grow hsh t = Some t ∧
    never_returns (hsh k) (ht_slots t, HEnt (hsh k) 0 k v, ht_idx (hsh k) n, None).
Proof.
  intros Hn Hp Hnd Hlen. assert (¬ pow2 (N.of_nat n)) as Hp'.
  { intros [b Hb]. apply Hp. exists (N.to_nat b). apply Nat2N.inj. rewrite Hb, Nat2N.inj_pow. by rewrite N2Nat.id. }
  assert (keys (ht_slots (ht_make (K := K) (V := V) n)) = []) as Ek.
  { unfold keys, kv, ht_make. cbn [ht_slots]. clear. induction n as [|n IH]; [done|]. cbn in *. exact IH. }
  destruct (insert_until hsh dflt n l (ht_make n)) as (l1 & k & v & l2 & t & as_ & -> & Er & Hl & Hnr); try done.
  { constructor; [unfold ht_make; cbn; by rewrite replicate_length| |rewrite Ek; constructor|by rewrite Ek].
    intros i [e He]. cbn in He. apply lookup_replicate in He as [? _]. done. }
  { by rewrite Ek, app_nil_r. }
  { cbn [ht_make ht_size]. lia. }
  exists l1, k, v, l2, t, (HmUnit :: as_). split; [done|]. split.
  - cbn [hm_run hm_step]. unfold ht_reserve. rewrite decide_False by (cbn; lia).
    change (ht_iter (@ht_init K V)) with (@nil (K * V)). cbn [insert_all mbind option_bind fst snd]. rewrite Er. done.
  - split; [apply Hl|]. split; [|done]. by apply (limited_no_growth hsh n).
Qed.

(** Of 67 insertions after reserve(100). *)
Example C40_not_power_example := C40_not_power_refuted (λ k : N, k) 0%N 100 ((λ k, (N.of_nat k, 0%N)) <$> seq 0 67).
Example C40_not_power_hyps : 0 < 100 ∧ ¬ (∃ b, 100 = 2 ^ b) ∧ NoDup (((λ k, (N.of_nat k, 0%N)) <$> seq 0 67).*1) ∧ 2 * 100 < 3 * length ((λ k, (N.of_nat k, 0%N)) <$> seq 0 67).
Proof.
  split; [lia|]. split.
  - intros [b Hb]. destruct (decide (b < 7)) as [H|H].
    + do 7 (destruct b as [|b]; [cbn in Hb; lia|]). lia.
    + pose proof (Nat.pow_le_mono_r 2 7 b ltac:(lia) ltac:(lia)) as Hm. cbn [Nat.pow] in Hm. lia.
  - split; [apply (bool_decide_unpack _); by vm_compute|by vm_compute; lia].
Qed.
(** With the identity as hash the 17th key already does: only 16 of the 100 buckets can be used. *)
Example C40_not_power_usable : length (uslots 100) = 16.
Proof. by vm_compute. Qed.

Print Assumptions C40_not_power_refuted.
