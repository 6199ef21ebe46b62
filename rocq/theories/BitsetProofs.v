(** Bitsets built from the default constructor are canonical. *)
From Verif Require Import Base Bitset.
Ltac Zify.zify_post_hook ::= Z.div_mod_to_equations.

Record bs_canon (s : bitset) : Prop := {
  bc_ne : s ≠ [];
  bc_last : length s = 1 ∨ last s ≠ Some 0%N;
  bc_lt : ∀ i b, s !! i = Some b → (b < 2 ^ block_bits)%N }.

Lemma test_bit blk b : negb (N.eqb (N.land blk (N.shiftl 1 b)) 0) = N.testbit blk b.
Proof.
  rewrite N.shiftl_1_l. destruct (N.testbit blk b) eqn:E.
  - apply negb_true_iff, N.eqb_neq. intros Hz.
    assert (N.testbit (N.land blk (2 ^ b)) b = true) as H; [|by rewrite Hz, N.bits_0 in H].
    rewrite N.land_spec, E, N.pow2_bits_true. done.
  - apply negb_false_iff, N.eqb_eq. apply N.bits_inj. intros j. rewrite N.land_spec, N.bits_0.
    destruct (decide (j = b)) as [->|Hj]; [by rewrite E|].
    rewrite N.pow2_bits_false by done. apply andb_false_r.
Qed.

Lemma bs_test_spec s pos :
  bs_test s pos = match s !! N.to_nat (pos / block_bits) with
                  | Some blk => N.testbit blk (pos mod block_bits) | None => false end.
Proof. unfold bs_test. simpl. case_match; [|done]. apply test_bit. Qed.

Lemma bits_high a b : (a < 2 ^ block_bits)%N → (block_bits <= b)%N → N.testbit a b = false.
Proof.
  intros Ha Hb. destruct (decide (a = 0)%N) as [->|]; [apply N.bits_0|].
  apply N.bits_above_log2. apply N.log2_lt_pow2; [lia|].
  eapply N.lt_le_trans; [done|]. apply N.pow_le_mono_r; lia.
Qed.

Lemma lt_pow_bits a : (∀ j, (block_bits <= j)%N → N.testbit a j = false) → (a < 2 ^ block_bits)%N.
Proof.
  intros H. destruct (decide (a = 0)%N) as [->|Hz]; [done|].
  apply N.log2_lt_pow2; [lia|]. destruct (N.lt_ge_cases (N.log2 a) block_bits) as [|Hge]; [done|].
  specialize (H _ Hge). rewrite N.bit_log2 in H; done.
Qed.

Lemma pos_split (i : nat) (b : N) : (b < block_bits)%N →
  N.to_nat ((N.of_nat i * block_bits + b) / block_bits) = i ∧
  ((N.of_nat i * block_bits + b) mod block_bits = b)%N.
Proof.
  intros Hb. unfold block_bits in *. split.
  - rewrite N.div_add_l by done. rewrite N.div_small by done. lia.
  - rewrite N.add_comm, N.mod_add by done. by apply N.mod_small.
Qed.

Lemma canon_lookup_eq s t i a b :
  bs_canon s → bs_canon t → (∀ pos, bs_test s pos = bs_test t pos) →
  s !! i = Some a → t !! i = Some b → a = b.
Proof.
  intros Hs Ht H Ha Hb. apply N.bits_inj. intros j.
  destruct (N.lt_ge_cases j block_bits) as [Hj|Hj].
  - specialize (H (N.of_nat i * block_bits + j)%N). rewrite !bs_test_spec in H.
    destruct (pos_split i j Hj) as [E1 E2]. rewrite E1, E2, Ha, Hb in H. done.
  - rewrite (bits_high a j), (bits_high b j); eauto using bc_lt.
Qed.

Lemma canon_length_le s t :
  bs_canon s → bs_canon t → (∀ pos, bs_test s pos = bs_test t pos) → length t ≤ length s.
Proof.
  intros Hs Ht H. destruct (Nat.le_gt_cases (length t) (length s)) as [|Hlt]; [done|]. exfalso.
  destruct (bc_last _ Ht) as [H1|Hl].
  { pose proof (bc_ne _ Hs) as Hne. destruct s; [done|]. simpl in Hlt. lia. }
  destruct (last t) as [b|] eqn:El.
  2:{ apply last_None in El. by apply (bc_ne _ Ht). }
  rewrite last_lookup in El.
  assert (b ≠ 0%N) as Hb by congruence.
  assert (N.log2 b < block_bits)%N as Hlog.
  { apply N.log2_lt_pow2; [lia|]. by eapply bc_lt. }
  specialize (H (N.of_nat (pred (length t)) * block_bits + N.log2 b)%N).
  rewrite !bs_test_spec in H.
  destruct (pos_split (pred (length t)) (N.log2 b) Hlog) as [E1 E2].
  rewrite E1, E2, El in H. rewrite N.bit_log2 in H by done.
  rewrite lookup_ge_None_2 in H by lia. done.
Qed.

Lemma canon_ext s t : bs_canon s → bs_canon t → (∀ pos, bs_test s pos = bs_test t pos) → s = t.
Proof.
  intros Hs Ht H.
  assert (length s = length t) as Hlen.
  { apply Nat.le_antisymm; [apply (canon_length_le t s); [done..|congruence]|by apply (canon_length_le s t)]. }
  apply list_eq. intros i. destruct (s !! i) as [a|] eqn:Ea.
  - destruct (lookup_lt_is_Some_2 t i) as [b Hb].
    { apply lookup_lt_Some in Ea. lia. }
    rewrite Hb. f_equal. exact (canon_lookup_eq s t i a b Hs Ht H Ea Hb).
  - symmetry. apply lookup_ge_None. apply lookup_ge_None in Ea. lia.
Qed.

Lemma canon_init : bs_canon bs_init.
Proof.
  split; simpl; [done|by left|]. intros [|i] b; simpl; [|by rewrite lookup_nil].
  intros [= <-]. done.
Qed.

Lemma lookup_resize_zero (s : bitset) n i :
  i < n → resize n 0%N s !! i = Some (default 0%N (s !! i)).
Proof.
  intros Hi. destruct (s !! i) eqn:E.
  - simpl. rewrite lookup_resize; [done|done|by eapply lookup_lt_Some].
  - simpl. apply lookup_ge_None in E. by apply lookup_resize_new.
Qed.

Definition grow (s : bitset) (i : nat) : bitset :=
  if decide (length s ≤ i) then resize (i + 1) 0%N s else s.

Lemma grow_lookup s i j : grow s i !! j = match s !! j with Some b => Some b
   | None => if decide (j ≤ i ∧ length s ≤ i) then Some 0%N else None end.
Proof.
  unfold grow. case_decide as Hg.
  - destruct (decide (j < i + 1)).
    + rewrite lookup_resize_zero by done. destruct (s !! j) eqn:E; simpl; [done|].
      rewrite decide_True; [done|lia].
    + rewrite lookup_resize_old by lia. destruct (s !! j) eqn:E.
      * apply lookup_lt_Some in E. lia.
      * rewrite decide_False; [done|lia].
  - destruct (s !! j) eqn:E; [done|]. rewrite decide_False; [done|lia].
Qed.

Lemma grow_length s i : length (grow s i) = max (length s) (i + 1).
Proof. unfold grow. case_decide; [rewrite resize_length|]; lia. Qed.

Lemma alter_grow_ne (f : N → N) s i : alter f i (grow s i) ≠ [].
Proof. intros E%(f_equal length). rewrite alter_length, grow_length in E. simpl in E. lia. Qed.

Lemma shl_bits b j : N.testbit (N.shiftl 1 b) j = bool_decide (j = b).
Proof.
  rewrite N.shiftl_1_l. case_bool_decide as E; [subst; apply N.pow2_bits_true|by apply N.pow2_bits_false].
Qed.

Lemma set_true_eq s pos : bs_set s pos true =
  alter (λ blk, N.lor blk (N.shiftl 1 (pos mod block_bits))) (N.to_nat (pos / block_bits))
        (grow s (N.to_nat (pos / block_bits))).
Proof. reflexivity. Qed.

Lemma set_true_canon s pos : bs_canon s → bs_canon (bs_set s pos true).
Proof.
  intros Hc. rewrite set_true_eq.
  set (i := N.to_nat (pos / block_bits)). set (b := (pos mod block_bits)%N).
  assert (b < block_bits)%N as Hb by (by apply N.mod_lt).
  assert (∀ x, N.lor x (N.shiftl 1 b) ≠ 0%N) as Hnz.
  { intros x Hx. assert (N.testbit (N.lor x (N.shiftl 1 b)) b = true) as H; [|by rewrite Hx, N.bits_0 in H].
    rewrite N.lor_spec, shl_bits, bool_decide_true by done. apply orb_true_r. }
  remember (λ blk, N.lor blk (N.shiftl 1 b)) as f eqn:Ef.
  assert (∀ x, f x ≠ 0%N) as Hnz' by (intros x; rewrite Ef; apply Hnz).
  split.
  - apply alter_grow_ne.
  - rewrite alter_length, grow_length.
    destruct (bc_last _ Hc) as [H1|Hl].
    + destruct (decide (i = 0)) as [->|Hi]; [left; lia|right].
      rewrite last_lookup, alter_length, grow_length, H1.
      replace (pred (1 `max` (i + 1))) with i by lia.
      rewrite list_lookup_alter. rewrite grow_lookup. rewrite lookup_ge_None_2 by lia.
      rewrite decide_True by lia. simpl. intros [= E]. by apply (Hnz' 0%N).
    + right. rewrite last_lookup, alter_length, grow_length.
      destruct (decide (length s ≤ i)).
      * replace (pred (length s `max` (i + 1))) with i by lia.
        rewrite list_lookup_alter. destruct (grow s i !! i); simpl; [|done]. intros [= E]. by apply (Hnz' n).
      * replace (pred (length s `max` (i + 1))) with (pred (length s)) by lia.
        rewrite last_lookup in Hl.
        destruct (decide (i = pred (length s))) as [->|Hne].
        -- rewrite list_lookup_alter. destruct (grow s _ !! _); simpl; [|done]. intros [= E]. by apply (Hnz' n0).
        -- rewrite list_lookup_alter_ne by done. rewrite grow_lookup.
           destruct (s !! pred (length s)) eqn:E; [done|]. apply lookup_ge_None in E.
           pose proof (bc_ne _ Hc). destruct s; [done|]. simpl in E. lia.
  - intros j x Hj.
    assert (∀ j x, grow s i !! j = Some x → (x < 2 ^ block_bits)%N) as Hg.
    { intros j' x'. rewrite grow_lookup. destruct (s !! j') eqn:E.
      - intros [= <-]. by eapply bc_lt.
      - case_decide; [|done]. intros [= <-]. done. }
    destruct (decide (i = j)) as [<-|].
    + rewrite list_lookup_alter in Hj. destruct (grow s i !! i) as [y|] eqn:Ey; [|done].
      simpl in Hj. injection Hj as <-. apply lt_pow_bits. intros k Hk.
      rewrite Ef, N.lor_spec, shl_bits, bool_decide_false by lia.
      rewrite (bits_high y k); [done|by eapply Hg|done].
    + rewrite list_lookup_alter_ne in Hj by done. by eapply Hg.
Qed.

Lemma set_true_test s pos p : bs_test (bs_set s pos true) p = bool_decide (p = pos) || bs_test s p.
Proof.
  rewrite !bs_test_spec. rewrite set_true_eq.
  set (i := N.to_nat (pos / block_bits)). set (b := (pos mod block_bits)%N).
  destruct (decide (N.to_nat (p / block_bits) = i)) as [E|E].
  - rewrite E, list_lookup_alter, grow_lookup.
    assert (p = pos ↔ (p mod block_bits = b)%N) as Hpb.
    { unfold b, i, block_bits in *. split; [by intros ->|]. intros Hm. lia. }
    destruct (s !! i) as [x|] eqn:Ex; cbn [fmap option_fmap option_map].
    + rewrite N.lor_spec, shl_bits, orb_comm. f_equal. by apply bool_decide_ext.
    + rewrite decide_True. 2:{ apply lookup_ge_None in Ex. lia. }
      cbn [fmap option_fmap option_map]. rewrite N.lor_spec, N.bits_0, shl_bits, orb_false_r. simpl.
      by apply bool_decide_ext.
  - rewrite list_lookup_alter_ne by done. rewrite grow_lookup.
    rewrite bool_decide_false by (intros ->; done). simpl.
    destruct (s !! _); [done|]. case_decide; [apply N.bits_0|done].
Qed.

Lemma trim_index_le s i : trim_index s i ≤ i.
Proof. induction i as [|i IH]; simpl; [lia|]. repeat case_match; lia. Qed.

Lemma trim_index_zero s i j : trim_index s i < j → j ≤ i → s !! j = Some 0%N.
Proof.
  induction i as [|i IH]; simpl; [lia|]. intros H1 H2.
  destruct (s !! S i) as [[|p]|] eqn:E; [|lia|lia].
  destruct (decide (j = S i)) as [->|]; [done|]. apply IH; lia.
Qed.

Lemma trim_index_nonzero s i : trim_index s i ≠ 0 → s !! trim_index s i ≠ Some 0%N.
Proof.
  induction i as [|i IH]; simpl; [done|]. destruct (s !! S i) as [[|p]|] eqn:E; [done|..];
  intros _; rewrite E; done.
Qed.

Definition trim (s : bitset) : bitset := resize (trim_index s (length s - 1) + 1) 0%N s.

Lemma trim_take s : s ≠ [] → trim s = take (trim_index s (length s - 1) + 1) s.
Proof.
  intros Hne. unfold trim. apply resize_le. pose proof (trim_index_le s (length s - 1)).
  destruct s; [done|]. simpl in *. lia.
Qed.

Lemma trim_canon s : s ≠ [] → (∀ i b, s !! i = Some b → (b < 2 ^ block_bits)%N) → bs_canon (trim s).
Proof.
  intros Hne Hlt. rewrite trim_take by done.
  pose proof (trim_index_le s (length s - 1)) as Hle.
  assert (0 < length s) as Hpos by (destruct s; [done|simpl; lia]).
  assert (length (take (trim_index s (length s - 1) + 1) s) = trim_index s (length s - 1) + 1) as Hlen.
  { rewrite take_length. lia. }
  split.
  - intros E%(f_equal length). rewrite Hlen in E. simpl in E. lia.
  - rewrite Hlen. destruct (decide (trim_index s (length s - 1) = 0)) as [->|Hnz]; [by left|right].
    rewrite last_lookup, Hlen. rewrite lookup_take by lia.
    replace (pred (trim_index s (length s - 1) + 1)) with (trim_index s (length s - 1)) by lia.
    by apply trim_index_nonzero.
  - intros i b [Hi _]%lookup_take_Some. by eapply Hlt.
Qed.

Lemma trim_test s p : s ≠ [] → bs_test (trim s) p = bs_test s p.
Proof.
  intros Hne. rewrite !bs_test_spec, trim_take by done.
  set (j := N.to_nat (p / block_bits)).
  destruct (decide (j < trim_index s (length s - 1) + 1)) as [Hj|Hj].
  - by rewrite lookup_take.
  - rewrite lookup_take_ge by lia. destruct (s !! j) as [b|] eqn:E; [|done].
    rewrite (trim_index_zero s (length s - 1) j) in E.
    + injection E as <-. by rewrite N.bits_0.
    + lia.
    + apply lookup_lt_Some in E. lia.
Qed.

Lemma set_false_eq s pos : bs_set s pos false =
  trim (alter (λ blk, N.ldiff blk (N.shiftl 1 (pos mod block_bits))) (N.to_nat (pos / block_bits))
              (grow s (N.to_nat (pos / block_bits)))).
Proof. reflexivity. Qed.

Lemma set_false_canon s pos : bs_canon s → bs_canon (bs_set s pos false).
Proof.
  intros Hc. rewrite set_false_eq. apply trim_canon.
  - apply alter_grow_ne.
  - intros j x Hj.
    set (i := N.to_nat (pos / block_bits)) in *.
    assert (∀ j x, grow s i !! j = Some x → (x < 2 ^ block_bits)%N) as Hg.
    { intros j' x'. rewrite grow_lookup. destruct (s !! j') eqn:E.
      - intros [= <-]. by eapply bc_lt.
      - case_decide; [|done]. intros [= <-]. done. }
    destruct (decide (i = j)) as [<-|].
    + rewrite list_lookup_alter in Hj. destruct (grow s i !! i) as [y|] eqn:Ey; [|done].
      simpl in Hj. injection Hj as <-. apply lt_pow_bits. intros k Hk.
      rewrite N.ldiff_spec. rewrite (bits_high y k); [done|by eapply Hg|done].
    + rewrite list_lookup_alter_ne in Hj by done. by eapply Hg.
Qed.

Lemma set_false_test s pos p :
  bs_test (bs_set s pos false) p = negb (bool_decide (p = pos)) && bs_test s p.
Proof.
  rewrite set_false_eq, trim_test.
  2:{ apply alter_grow_ne. }
  rewrite !bs_test_spec.
  set (i := N.to_nat (pos / block_bits)). set (b := (pos mod block_bits)%N).
  destruct (decide (N.to_nat (p / block_bits) = i)) as [E|E].
  - rewrite E, list_lookup_alter, grow_lookup.
    assert (p = pos ↔ (p mod block_bits = b)%N) as Hpb.
    { unfold b, i, block_bits in *. split; [by intros ->|]. intros Hm. lia. }
    destruct (s !! i) as [x|] eqn:Ex.
    + cbn [fmap option_fmap option_map]. rewrite N.ldiff_spec, shl_bits, andb_comm.
      f_equal. f_equal. by apply bool_decide_ext.
    + rewrite decide_True. 2:{ apply lookup_ge_None in Ex. lia. }
      cbn [fmap option_fmap option_map]. rewrite N.ldiff_spec, N.bits_0. simpl. by rewrite andb_false_r.
  - rewrite list_lookup_alter_ne by done. rewrite grow_lookup.
    rewrite bool_decide_false by (intros ->; done). simpl.
    destruct (s !! _); [done|]. case_decide; [apply N.bits_0|done].
Qed.

Lemma clear_canon s : bs_canon (bs_clear s).
Proof. exact canon_init. Qed.

Lemma clear_test s p : bs_test (bs_clear s) p = false.
Proof.
  rewrite bs_test_spec. unfold bs_clear. by destruct (N.to_nat (p / block_bits)).
Qed.

Lemma init_test p : bs_test bs_init p = false.
Proof. exact (clear_test [] p). Qed.

Lemma run_canon os : bs_canon (bs_run os).
Proof.
  unfold bs_run. assert (bs_canon bs_init) as Hc by apply canon_init. revert Hc. generalize bs_init.
  induction os as [|o os IH]; intros s Hs; simpl; [done|]. apply IH.
  destruct o; simpl; [by apply set_true_canon|by apply set_false_canon|apply clear_canon].
Qed.
