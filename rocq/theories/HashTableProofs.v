(** Invariant of the robin-hood table and the correctness of each operation. *)
From Verif Require Import Base Bits HashTable.
Ltac Zify.zify_post_hook ::= Z.div_mod_to_equations.

Section proofs.
Context {K V : Type} `{EqDecision K}.
Variable H : K → N.
Notation slots := (list (option (hent K V))).
Implicit Types sl : slots.
Implicit Types e t : hent K V.

(** Position reached from hash [h] after [p] probes. *)
Definition pos (n : nat) (h : N) (p : nat) : nat := (ht_idx h n + p) mod n.

Lemma idx_lt n h : pow2 (N.of_nat n) → ht_idx h n < n.
Proof. intros Hp. pose proof (pow2_pos _ Hp). unfold ht_idx. rewrite mod_2n_pow2 by done. lia. Qed.

Lemma next_mod n i : pow2 (N.of_nat n) → ht_next i n = (i + 1) mod n.
Proof.
  intros Hp. pose proof (pow2_pos _ Hp). unfold ht_next, ht_idx. rewrite mod_2n_pow2 by done.
  replace (N.of_nat i + 1)%N with (N.of_nat (i + 1)) by lia.
  rewrite <-Nat2N.inj_mod. lia.
Qed.

Lemma next_lt n i : pow2 (N.of_nat n) → ht_next i n < n.
Proof. intros Hp. apply (idx_lt n (N.of_nat i + 1) Hp). Qed.

Lemma next_case n i : pow2 (N.of_nat n) → i < n →
  (ht_next i n = S i ∧ S i < n) ∨ (ht_next i n = 0 ∧ S i = n).
Proof.
  intros Hp Hi. rewrite (next_mod _ _ Hp).
  destruct (decide (S i = n)) as [E|E].
  - right. split; [|done]. replace (i + 1) with n by lia. apply Nat.mod_same. lia.
  - left. split; [|lia]. rewrite Nat.mod_small; lia.
Qed.

Lemma next_inj n i j : pow2 (N.of_nat n) → i < n → j < n → ht_next i n = ht_next j n → i = j.
Proof.
  intros Hp Hi Hj. destruct (next_case n i Hp Hi), (next_case n j Hp Hj); lia.
Qed.

Lemma next_surj n j : pow2 (N.of_nat n) → j < n → ∃ i, i < n ∧ ht_next i n = j.
Proof.
  intros Hp Hj. destruct j as [|j].
  - exists (n - 1). split; [lia|]. destruct (next_case n (n - 1) Hp); lia.
  - exists j. split; [lia|]. destruct (next_case n j Hp); lia.
Qed.

Lemma pos_0 n h : pow2 (N.of_nat n) → pos n h 0 = ht_idx h n.
Proof. intros Hp. pose proof (idx_lt n h Hp). unfold pos. rewrite Nat.add_0_r, Nat.mod_small; lia. Qed.

Lemma pos_lt n h p : pow2 (N.of_nat n) → pos n h p < n.
Proof. intros Hp. pose proof (pow2_pos _ Hp). unfold pos. apply Nat.mod_upper_bound. lia. Qed.

Lemma pos_S n h p : pow2 (N.of_nat n) → pos n h (S p) = ht_next (pos n h p) n.
Proof.
  intros Hp. pose proof (pow2_pos _ Hp). rewrite next_mod by done. unfold pos.
  rewrite Nat.add_mod_idemp_l by lia. f_equal. lia.
Qed.

Lemma pos_surj n h x : pow2 (N.of_nat n) → x < n → ∃ q, q < n ∧ pos n h q = x.
Proof.
  intros Hp Hx. pose proof (idx_lt n h Hp). unfold pos. set (a := ht_idx h n) in *.
  destruct (decide (a ≤ x)).
  - exists (x - a). split; [lia|]. rewrite Nat.mod_small; lia.
  - exists (x + n - a). split; [lia|]. replace (a + (x + n - a)) with (x + 1 * n) by lia.
    rewrite Nat.mod_add by lia. apply Nat.mod_small; lia.
Qed.

(** Stored pairs. *)
Definition kv sl : list (K * V) := (λ e, (he_key e, he_val e)) <$> omap id sl.
Definition keys sl : list K := (kv sl).*1.

Lemma kv_app sl1 sl2 : kv (sl1 ++ sl2) = kv sl1 ++ kv sl2.
Proof. unfold kv. by rewrite omap_app, fmap_app. Qed.

Lemma kv_split sl i (o : option (hent K V)) :
  sl !! i = Some o → kv sl ≡ₚ kv [o] ++ kv (take i sl) ++ kv (drop (S i) sl).
Proof.
  intros Hi. rewrite <-(take_drop_middle sl i o Hi) at 1.
  rewrite kv_app. change (o :: drop (S i) sl) with ([o] ++ drop (S i) sl). rewrite kv_app. solve_Permutation.
Qed.

Lemma kv_insert sl i (o o' : option (hent K V)) :
  sl !! i = Some o → kv [o] ++ kv (<[i := o']> sl) ≡ₚ kv [o'] ++ kv sl.
Proof.
  intros Hi. pose proof (lookup_lt_Some _ _ _ Hi).
  rewrite (kv_split (<[i := o']> sl) i o') by (by apply list_lookup_insert).
  rewrite (kv_split sl i o Hi).
  rewrite take_insert by lia. rewrite drop_insert_gt by lia. solve_Permutation.
Qed.

Lemma kv_elem sl i e : sl !! i = Some (Some e) → (he_key e, he_val e) ∈ kv sl.
Proof. intros Hi. rewrite (kv_split _ _ _ Hi). cbn. by left. Qed.

Lemma keys_elem sl i e : sl !! i = Some (Some e) → he_key e ∈ keys sl.
Proof.
  intros Hi. unfold keys. apply elem_of_list_fmap. exists (he_key e, he_val e). split; [done|].
  by eapply kv_elem.
Qed.

Lemma kv_inv sl k v : (k, v) ∈ kv sl → ∃ i e, sl !! i = Some (Some e) ∧ he_key e = k ∧ he_val e = v.
Proof.
  unfold kv. intros (e & [= -> ->] & Hin)%elem_of_list_fmap.
  apply elem_of_list_omap in Hin as (o & Ho & Hs). cbv [id] in Hs. subst o.
  apply elem_of_list_lookup in Ho as [i Hi]. by exists i, e.
Qed.

Lemma keys_inv sl k : k ∈ keys sl → ∃ i e, sl !! i = Some (Some e) ∧ he_key e = k.
Proof.
  unfold keys. intros ([k' v] & -> & Hin)%elem_of_list_fmap.
  destruct (kv_inv _ _ _ Hin) as (i & e & ? & ? & _). by exists i, e.
Qed.

Lemma keys_unique sl i j e f :
  NoDup (keys sl) → sl !! i = Some (Some e) → sl !! j = Some (Some f) → he_key e = he_key f → i = j.
Proof.
  intros Hnd Hi Hj Hk. destruct (decide (i = j)) as [|Hij]; [done|exfalso].
  assert (Hj' : <[i := None]> sl !! j = Some (Some f)) by (by rewrite list_lookup_insert_ne).
  pose proof (kv_insert sl i (Some e) None Hi) as Hp. apply (fmap_Permutation fst) in Hp.
  cbn in Hp. fold (keys (<[i:=None]> sl)) (keys sl) in Hp. rewrite <-Hp in Hnd.
  apply NoDup_cons in Hnd as [Hnd _]. apply Hnd. rewrite Hk. by eapply keys_elem.
Qed.

(** The table invariant. *)
Record wf sl : Prop := {
  wf_pow : pow2 (N.of_nat (length sl));
  wf_pos : ∀ i e, sl !! i = Some (Some e) →
    i = pos (length sl) (he_hash e) (he_psl e) ∧ he_hash e = H (he_key e) ∧ he_psl e < length sl;
  wf_prev : ∀ i e, i < length sl → sl !! ht_next i (length sl) = Some (Some e) → 0 < he_psl e →
    ∃ e', sl !! i = Some (Some e') ∧ he_psl e ≤ S (he_psl e');
  wf_nd : NoDup (keys sl) }.

(** Walking back from an occupied slot. *)
Lemma chain sl h p q e :
  wf sl → sl !! pos (length sl) h p = Some (Some e) → p ≤ he_psl e → q ≤ p →
  ∃ e', sl !! pos (length sl) h q = Some (Some e') ∧ q ≤ he_psl e'.
Proof.
  intros Hwf. revert e. induction p as [|p IH]; intros e He Hle Hq.
  - exists e. replace q with 0 by lia. split; [done|lia].
  - destruct (decide (q = S p)) as [->|]; [by exists e|].
    rewrite pos_S in He by apply Hwf.
    destruct (wf_prev _ Hwf (pos (length sl) h p) e) as (e' & He' & Hle'); [|done|lia|].
    { apply pos_lt, Hwf. }
    apply (IH e' He'); lia.
Qed.

(** Lookup. *)
Lemma find_present sl j e fuel q :
  wf sl → sl !! j = Some (Some e) → q ≤ he_psl e → he_psl e - q < fuel →
  find_loop fuel sl (H (he_key e)) (he_key e) (pos (length sl) (H (he_key e)) q) q = Some (Some j).
Proof.
  intros Hwf Hj. destruct (wf_pos _ Hwf _ _ Hj) as (Hpos & Hh & Hlt). rewrite Hh in Hpos.
  revert q. induction fuel as [|fuel IH]; intros q Hq Hf; [lia|]. cbn [find_loop].
  destruct (chain sl (H (he_key e)) (he_psl e) q e Hwf) as (e' & He' & Hle); [by rewrite <-Hpos|lia|lia|].
  rewrite He'. cbn [mbind option_bind].
  unfold e_match. case_bool_decide as E1; case_bool_decide as E2; cbn.
  1: { f_equal. f_equal. by eapply keys_unique; [apply Hwf| | |]. }
  1: assert (q ≠ he_psl e) by (intros ->; rewrite <-Hpos, Hj in He'; by simplify_eq).
  2: assert (q ≠ he_psl e) by (intros ->; rewrite <-Hpos, Hj in He'; by simplify_eq).
  3: assert (q ≠ he_psl e) by (intros ->; rewrite <-Hpos, Hj in He'; by simplify_eq).
  all: rewrite decide_False by lia; rewrite <-pos_S by apply Hwf; apply IH; lia.
Qed.

Lemma find_absent sl k h fuel i q :
  wf sl → k ∉ keys sl → i < length sl → q ≤ length sl → length sl < fuel + q →
  find_loop fuel sl h k i q = Some None.
Proof.
  intros Hwf Hk. revert i q. induction fuel as [|fuel IH]; intros i q Hi Hq Hf; [lia|]. cbn [find_loop].
  destruct (lookup_lt_is_Some_2 _ _ Hi) as [[e|] He]; rewrite He; cbn [mbind option_bind]; [|done].
  unfold e_match. rewrite (bool_decide_eq_false_2 (he_key e = k)), andb_false_r.
  2: { intros <-. apply Hk. by eapply keys_elem. }
  case_decide; [done|]. destruct (wf_pos _ Hwf _ _ He) as (_ & _ & ?).
  apply IH; [|lia|lia]. apply next_lt, Hwf.
Qed.

Lemma erase_find_present sl j e fuel q :
  wf sl → sl !! j = Some (Some e) → q ≤ he_psl e → he_psl e - q < fuel →
  erase_find fuel sl (H (he_key e)) (he_key e) (pos (length sl) (H (he_key e)) q) q = Some (Some j).
Proof.
  intros Hwf Hj. destruct (wf_pos _ Hwf _ _ Hj) as (Hpos & Hh & Hlt). rewrite Hh in Hpos.
  revert q. induction fuel as [|fuel IH]; intros q Hq Hf; [lia|]. cbn [erase_find].
  destruct (chain sl (H (he_key e)) (he_psl e) q e Hwf) as (e' & He' & Hle); [by rewrite <-Hpos|lia|lia|].
  rewrite He'. cbn [mbind option_bind]. rewrite decide_False by lia.
  unfold e_match. case_bool_decide as E1; case_bool_decide as E2; cbn.
  1: { f_equal. f_equal. by eapply keys_unique; [apply Hwf| | |]. }
  1: assert (q ≠ he_psl e) by (intros ->; rewrite <-Hpos, Hj in He'; by simplify_eq).
  2: assert (q ≠ he_psl e) by (intros ->; rewrite <-Hpos, Hj in He'; by simplify_eq).
  3: assert (q ≠ he_psl e) by (intros ->; rewrite <-Hpos, Hj in He'; by simplify_eq).
  all: rewrite <-pos_S by apply Hwf; apply IH; lia.
Qed.

Lemma erase_find_absent sl k h fuel i q :
  wf sl → k ∉ keys sl → i < length sl → q ≤ length sl → length sl < fuel + q →
  erase_find fuel sl h k i q = Some None.
Proof.
  intros Hwf Hk. revert i q. induction fuel as [|fuel IH]; intros i q Hi Hq Hf; [lia|]. cbn [erase_find].
  destruct (lookup_lt_is_Some_2 _ _ Hi) as [[e|] He]; rewrite He; cbn [mbind option_bind]; [|done].
  case_decide; [done|].
  unfold e_match. rewrite (bool_decide_eq_false_2 (he_key e = k)), andb_false_r.
  2: { intros <-. apply Hk. by eapply keys_elem. }
  destruct (wf_pos _ Hwf _ _ He) as (_ & _ & ?).
  apply IH; [|lia|lia]. apply next_lt, Hwf.
Qed.

(** Insertion of a present key: no bucket is displaced before the key is met. *)
Lemma insert_present asg sl j e fuel q v r :
  wf sl → sl !! j = Some (Some e) → q ≤ he_psl e → he_psl e - q < fuel →
  insert_loop asg fuel sl (H (he_key e)) (HEnt (H (he_key e)) q (he_key e) v)
    (pos (length sl) (H (he_key e)) q) r =
  Some (if asg then <[j := Some (e_setval e v)]> sl else sl, (j, false)).
Proof.
  intros Hwf Hj. destruct (wf_pos _ Hwf _ _ Hj) as (Hpos & Hh & Hlt). rewrite Hh in Hpos.
  revert q. induction fuel as [|fuel IH]; intros q Hq Hf; [lia|]. cbn [insert_loop he_key he_psl he_val].
  destruct (chain sl (H (he_key e)) (he_psl e) q e Hwf) as (e' & He' & Hle); [by rewrite <-Hpos|lia|lia|].
  rewrite He'. cbn [mbind option_bind].
  unfold e_match. case_bool_decide as E1; case_bool_decide as E2; cbn [andb].
  1: { assert (j = pos (length sl) (H (he_key e)) q) as Hjq
         by (by eapply keys_unique; [apply Hwf| | |]).
       rewrite <-Hjq in He'. rewrite Hj in He'. simplify_eq. by rewrite <-Hjq. }
  1: assert (q ≠ he_psl e) by (intros ->; rewrite <-Hpos, Hj in He'; by simplify_eq).
  2: assert (q ≠ he_psl e) by (intros ->; rewrite <-Hpos, Hj in He'; by simplify_eq).
  3: assert (q ≠ he_psl e) by (intros ->; rewrite <-Hpos, Hj in He'; by simplify_eq).
  all: rewrite decide_False by lia; rewrite <-pos_S by apply Hwf; apply IH; lia.
Qed.

(** A carried entry may be placed at its position. *)
Definition carried sl t : Prop :=
  he_hash t = H (he_key t) ∧
  (0 < he_psl t → ∃ e', sl !! pos (length sl) (he_hash t) (pred (he_psl t)) = Some (Some e') ∧
    he_psl t ≤ S (he_psl e')).

Lemma carried_psl sl t x :
  wf sl → carried sl t → sl !! x = Some None → he_psl t < length sl.
Proof.
  intros Hwf [_ Hc] Hx. destruct (decide (he_psl t < length sl)) as [|Hge]; [done|exfalso].
  pose proof (pow2_pos _ (wf_pow _ Hwf)).
  destruct (pos_surj (length sl) (he_hash t) x (wf_pow _ Hwf)) as (q & Hq & Hpq).
  { by eapply lookup_lt_Some. }
  destruct Hc as (e' & He' & Hle); [lia|].
  destruct (chain sl (he_hash t) (pred (he_psl t)) q e' Hwf He') as (e2 & He2 & _); [lia|lia|].
  rewrite Hpq, Hx in He2. done.
Qed.

(** Placing the carried entry into its slot when that slot is free or holds a richer entry. *)
Lemma place_wf sl t x o :
  wf sl → carried sl t → he_psl t < length sl →
  he_key t ∉ keys sl →
  sl !! pos (length sl) (he_hash t) (he_psl t) = Some o →
  match o with Some e => he_psl e < he_psl t | None => True end →
  (∀ e, o = None → sl !! ht_next (pos (length sl) (he_hash t) (he_psl t)) (length sl) = Some (Some e) → he_psl e = 0) →
  x = pos (length sl) (he_hash t) (he_psl t) →
  wf (<[x := Some t]> sl).
Proof.
  intros Hwf [Hh Hc] Hlt Hk Ho Hrich Hnone Ex. rewrite <-Ex in Ho, Hnone.
  pose proof (wf_pow _ Hwf) as Hp. assert (Hx : x < length sl) by (rewrite Ex; by apply pos_lt).
  split; rewrite ?insert_length; [done| | |].
  - intros i e Hi. destruct (decide (i = x)) as [->|Hne].
    + rewrite list_lookup_insert in Hi by done. simplify_eq. done.
    + rewrite list_lookup_insert_ne in Hi by done. by apply (wf_pos _ Hwf).
  - intros i e Hil Hi Hpsl.
    destruct (decide (ht_next i (length sl) = x)) as [Hix|Hix].
    + rewrite Hix, list_lookup_insert in Hi by done. assert (e = t) as -> by congruence.
      destruct Hc as (e' & He' & Hle); [done|].
      assert (i = pos (length sl) (he_hash t) (pred (he_psl t))) as Hi'.
      { eapply next_inj; [done|done|by apply pos_lt|]. rewrite Hix, <-pos_S by done.
        rewrite Ex. f_equal. lia. }
      destruct (decide (i = x)) as [->|].
      * rewrite list_lookup_insert by done. eexists. split; [done|lia].
      * rewrite list_lookup_insert_ne by done. exists e'. by rewrite Hi'.
    + rewrite list_lookup_insert_ne in Hi by done.
      destruct (decide (i = x)) as [->|].
      * rewrite list_lookup_insert by done. exists t. split; [done|].
        destruct o as [e0|].
        -- destruct (wf_prev _ Hwf x e Hx Hi Hpsl) as (e' & He' & Hle).
           assert (e' = e0) as -> by congruence. lia.
        -- specialize (Hnone e eq_refl Hi). lia.
      * rewrite list_lookup_insert_ne by done. by apply (wf_prev _ Hwf).
  - pose proof (kv_insert sl x o (Some t) Ho) as Hperm. apply (fmap_Permutation fst) in Hperm.
    rewrite !fmap_app in Hperm. fold (keys (<[x:=Some t]> sl)) (keys sl) in Hperm. cbn in Hperm.
    assert (NoDup (he_key t :: keys sl)) as Hnd by (apply NoDup_cons; split; [done|apply Hwf]).
    rewrite <-Hperm in Hnd. by apply NoDup_app in Hnd as (_ & _ & ?).
Qed.

Lemma free_next_zero sl x e :
  wf sl → x < length sl → sl !! x = Some None → sl !! ht_next x (length sl) = Some (Some e) → he_psl e = 0.
Proof.
  intros Hwf Hx Hn He. destruct (decide (he_psl e = 0)) as [|Hne]; [done|].
  destruct (wf_prev _ Hwf x e Hx He) as (e' & He' & _); [lia|]. by rewrite Hn in He'.
Qed.

Lemma insert_absent asg h fuel sl t r d :
  wf sl → carried sl t → he_key t ∉ keys sl →
  let i := pos (length sl) (he_hash t) (he_psl t) in
  d < fuel → d < length sl → sl !! ((i + d) mod length sl) = Some None →
  ∃ sl' j, insert_loop asg fuel sl h t i r = Some (sl', (j, true)) ∧
    wf sl' ∧ length sl' = length sl ∧
    kv sl' ≡ₚ (he_key t, he_val t) :: kv sl ∧
    (∀ x, x < length sl → (∀ d', d' ≤ d → x ≠ (i + d') mod length sl) → sl' !! x = sl !! x) ∧
    match r with
    | Some j0 => j = j0
    | None => ∃ e, sl' !! j = Some (Some e) ∧ he_key e = he_key t ∧ he_val e = he_val t
    end.
Proof.
  revert sl t r d. induction fuel as [|fuel IH]; intros sl t r d Hwf Hc Hk i Hf Hd Hfree; [lia|].
  pose proof (wf_pow _ Hwf) as Hp. pose proof (pow2_pos _ Hp).
  assert (Hi : i < length sl) by (by apply pos_lt).
  assert (Hlt : he_psl t < length sl) by (by eapply carried_psl).
  cbn [insert_loop]. destruct (lookup_lt_is_Some_2 _ _ Hi) as [o Ho]. rewrite Ho. cbn [mbind option_bind].
  destruct o as [e|].
  2: { eexists _, _. split; [done|]. split.
       { eapply place_wf; try done. intros e _ He. exact (free_next_zero sl i e Hwf Hi Ho He). }
       split; [by rewrite insert_length|]. split.
       { by rewrite <-(kv_insert sl i None (Some t) Ho). }
       split.
       { intros x Hx Hne. rewrite list_lookup_insert_ne; [done|]. intros <-.
         apply (Hne 0); [lia|]. rewrite Nat.add_0_r, Nat.mod_small; done. }
       destruct r; [done|]. cbn. exists t. by rewrite list_lookup_insert. }
  assert (Hd0 : d ≠ 0).
  { intros ->. rewrite Nat.add_0_r, Nat.mod_small, Ho in Hfree by done. done. }
  assert (Hnext : ∀ d', (ht_next i (length sl) + d') mod length sl = (i + S d') mod length sl).
  { intros d'. rewrite next_mod by done. rewrite Nat.add_mod_idemp_l by lia. f_equal. lia. }
  assert (Hne : ∀ d', d' < d → i ≠ (ht_next i (length sl) + d') mod length sl).
  { intros d' Hd'. rewrite Hnext. clear -Hi Hd Hd'.
    destruct (decide (i + S d' < length sl)); [rewrite Nat.mod_small; lia|].
    replace (i + S d') with (i + S d' - length sl + 1 * length sl) by lia.
    rewrite Nat.mod_add by lia. rewrite Nat.mod_small; lia. }
  assert (Hdist : (ht_next i (length sl) + pred d) mod length sl = (i + d) mod length sl).
  { rewrite Hnext. f_equal. lia. }
  unfold e_match. rewrite (bool_decide_eq_false_2 (he_key e = he_key t)), andb_false_r.
  2: { intros E. apply Hk. rewrite <-E. by eapply keys_elem. }
  destruct (wf_pos _ Hwf _ _ Ho) as (Hie & Hhe & Hpe).
  case_decide as Hpsl.
  - (* swap *)
    set (sl1 := <[i := Some t]> sl).
    assert (Hwf1 : wf sl1).
    { eapply place_wf; try done. }
    assert (Hlen1 : length sl1 = length sl) by (unfold sl1; by rewrite insert_length).
    pose proof (kv_insert sl i (Some e) (Some t) Ho) as Hkv. cbn in Hkv. fold sl1 in Hkv.
    assert (Hnd : NoDup (he_key e :: keys sl1)).
    { apply (fmap_Permutation fst) in Hkv. cbn in Hkv.
      unfold keys. rewrite Hkv. apply NoDup_cons. split; [done|apply Hwf]. }
    apply NoDup_cons in Hnd as [Hnd _].
    assert (Hposn : pos (length sl1) (he_hash (e_inc e)) (he_psl (e_inc e)) = ht_next i (length sl)).
    { rewrite Hlen1. unfold e_inc. cbn [he_hash he_psl]. rewrite pos_S by done. by rewrite <-Hie. }
    edestruct (IH sl1 (e_inc e) (Some (default i r)) (pred d)) as (sl' & j & Hins & Hwf' & Hlen & Hkv' & Hsame & Hj).
    + done.
    + split; [done|]. intros _. exists t. unfold e_inc. cbn [he_hash he_psl pred].
      rewrite Hlen1, <-Hie. unfold sl1. rewrite list_lookup_insert by done. split; [done|lia].
    + done.
    + lia.
    + lia.
    + rewrite Hposn, Hlen1, Hdist. unfold sl1. rewrite list_lookup_insert_ne; [done|].
      rewrite <-Hdist. apply Hne. lia.
    + rewrite Hposn in Hins, Hsame. rewrite Hlen1 in Hsame.
      exists sl', j. split; [done|]. split; [done|]. split; [lia|]. split.
      { rewrite Hkv'. cbn [e_inc he_key he_val]. done. }
      split.
      { intros x Hx Hxd. rewrite Hsame; [|lia|].
        - unfold sl1. rewrite list_lookup_insert_ne; [done|]. intros <-. apply (Hxd 0); [lia|].
          rewrite Nat.add_0_r, Nat.mod_small; done.
        - intros d' Hd'. rewrite Hnext. apply Hxd. lia. }
      subst j. destruct r as [j0|]; [done|]. cbn. exists t. split; [|done].
      rewrite Hsame; [|done|].
      * unfold sl1. by rewrite list_lookup_insert.
      * intros d' Hd'. apply Hne. lia.
  - (* no swap *)
    assert (Hposn : pos (length sl) (he_hash (e_inc t)) (he_psl (e_inc t)) = ht_next i (length sl)).
    { unfold e_inc. cbn [he_hash he_psl]. by rewrite pos_S by done. }
    edestruct (IH sl (e_inc t) r (pred d)) as (sl' & j & Hins & Hwf' & Hlen & Hkv' & Hsame & Hj).
    + done.
    + split; [apply Hc|]. intros _. exists e. unfold e_inc. cbn [he_hash he_psl pred].
      fold i. split; [done|lia].
    + done.
    + lia.
    + lia.
    + rewrite Hposn, Hdist. done.
    + rewrite Hposn in Hins, Hsame.
      exists sl', j. split; [done|]. split; [done|]. split; [lia|]. split; [done|]. split.
      { intros x Hx Hxd. apply Hsame; [lia|]. intros d' Hd'. rewrite Hnext. apply Hxd. lia. }
      done.
Qed.

(** Backward shift. *)
Record hwf sl (i q : nat) : Prop := {
  hw_pow : pow2 (N.of_nat (length sl));
  hw_free : sl !! i = Some None;
  hw_pos : ∀ j e, sl !! j = Some (Some e) →
    j = pos (length sl) (he_hash e) (he_psl e) ∧ he_hash e = H (he_key e) ∧ he_psl e < length sl;
  hw_prev : ∀ j e, j < length sl → j ≠ i → sl !! ht_next j (length sl) = Some (Some e) → 0 < he_psl e →
    ∃ e', sl !! j = Some (Some e') ∧ he_psl e ≤ S (he_psl e');
  hw_next : ∀ e, sl !! ht_next i (length sl) = Some (Some e) → he_psl e ≤ S q;
  hw_before : ∀ j, 0 < q → j < length sl → ht_next j (length sl) = i →
    ∃ e', sl !! j = Some (Some e') ∧ q ≤ S (he_psl e');
  hw_nd : NoDup (keys sl) }.

Lemma psum_insert sl i o o' :
  sl !! i = Some o → psum (<[i := o']> sl) + psl_of o = psum sl + psl_of o'.
Proof.
  unfold psum. revert i. induction sl as [|x sl IH]; intros [|i] Hi; simplify_eq/=; [lia|].
  specialize (IH _ Hi). lia.
Qed.

Lemma shift_ok fuel sl i q :
  hwf (<[i := None]> sl) i q → psum (<[i := None]> sl) < fuel →
  ∃ sl', shift_loop fuel sl i = Some sl' ∧ wf sl' ∧ length sl' = length sl ∧ kv sl' ≡ₚ kv (<[i := None]> sl).
Proof.
  revert sl i q. induction fuel as [|fuel IH]; intros sl i q Hh Hf; [lia|]. cbn [shift_loop].
  set (sl1 := <[i := None]> sl) in *.
  assert (Hlen : length sl1 = length sl) by (unfold sl1; by rewrite insert_length).
  rewrite <-Hlen. set (n := length sl1) in *.
  pose proof (hw_pow _ _ _ Hh) as Hp. fold n in Hp.
  assert (Hi : i < n) by (eapply lookup_lt_Some; apply Hh).
  assert (Hj : ht_next i n < n) by (by apply next_lt).
  destruct (lookup_lt_is_Some_2 sl1 _ Hj) as [o Ho]. rewrite Ho. cbn [mbind option_bind].
  assert (Hdone : (∀ e, o = Some e → he_psl e = 0) → wf sl1).
  { intros Hz. split; [apply Hh|apply Hh| |apply Hh].
    intros j e Hjl Hje Hpsl. destruct (decide (j = i)) as [->|]; [|by apply (hw_prev _ _ _ Hh)].
    fold n in Hje. rewrite Ho in Hje. simplify_eq. specialize (Hz e eq_refl). lia. }
  destruct o as [e|].
  2: { exists sl1. split; [done|]. split; [by apply Hdone|]. done. }
  case_decide as Hz.
  { exists sl1. split; [done|]. split; [|done]. apply Hdone. naive_solver. }
  set (j := ht_next i n) in *.
  assert (Hij : i ≠ j). { intros E. rewrite <-E, (hw_free _ _ _ Hh) in Ho. done. }
  destruct (hw_pos _ _ _ Hh _ _ Ho) as (Hpe & Hhe & Hle). fold n in Hpe, Hle.
  pose proof (hw_next _ _ _ Hh _ Ho) as Hq.
  assert (Hip : i = pos n (he_hash e) (pred (he_psl e))).
  { eapply next_inj; [done|done|by apply pos_lt|]. rewrite <-pos_S by done.
    fold j. rewrite Hpe at 1. f_equal. lia. }
  set (sl2 := <[i := Some (e_dec e)]> sl1).
  assert (Hi2 : sl2 !! i = Some (Some (e_dec e))) by (unfold sl2; by rewrite list_lookup_insert).
  assert (Hj2 : sl2 !! j = Some (Some e)) by (unfold sl2; by rewrite list_lookup_insert_ne).
  set (sl3 := <[j := None]> sl2).
  assert (Hlen3 : length sl3 = n) by (unfold sl3, sl2; by rewrite !insert_length).
  assert (H3i : sl3 !! i = Some (Some (e_dec e))) by (unfold sl3; by rewrite list_lookup_insert_ne).
  assert (H3j : sl3 !! j = Some None).
  { unfold sl3. apply list_lookup_insert. unfold sl2. rewrite insert_length. done. }
  assert (H3o : ∀ x, x ≠ i → x ≠ j → sl3 !! x = sl1 !! x).
  { intros x ??. unfold sl3, sl2. rewrite !list_lookup_insert_ne; done. }
  pose proof (kv_insert sl1 i None (Some (e_dec e)) (hw_free _ _ _ Hh)) as Hkv2. cbn in Hkv2. fold sl2 in Hkv2.
  pose proof (kv_insert sl2 j (Some e) None Hj2) as Hkv3. cbn in Hkv3. fold sl3 in Hkv3.
  rewrite Hkv2 in Hkv3. apply (Permutation_cons_inv) in Hkv3.
  assert (Hh3 : hwf sl3 j (he_psl e)).
  { split; rewrite ?Hlen3; [done|done| | | | |].
    - intros x e1 Hx. destruct (decide (x = i)) as [->|]; [|destruct (decide (x = j)) as [->|]].
      + rewrite H3i in Hx. simplify_eq. unfold e_dec. cbn. split; [done|]. split; [done|lia].
      + by rewrite H3j in Hx.
      + rewrite H3o in Hx by done. by apply (hw_pos _ _ _ Hh).
    - intros x e1 Hx Hxj Hxe Hpsl.
      destruct (decide (ht_next x n = i)) as [Exi|Exi].
      + rewrite Exi, H3i in Hxe. simplify_eq. cbn [e_dec he_psl] in Hpsl |- *.
        destruct (hw_before _ _ _ Hh x) as (e' & He' & Hle'); [lia|done|done|].
        destruct (decide (x = i)) as [->|Hxi].
        { rewrite (hw_free _ _ _ Hh) in He'. done. }
        rewrite H3o by done. exists e'. split; [done|lia].
      + destruct (decide (ht_next x n = j)) as [Exj|Exj].
        * by rewrite Exj, H3j in Hxe.
        * rewrite H3o in Hxe by done.
          destruct (decide (x = i)) as [->|Hxi]; [done|].
          rewrite H3o by done. by apply (hw_prev _ _ _ Hh).
    - intros e1 He1.
      destruct (decide (ht_next j n = i)) as [Eji|Eji].
      + rewrite Eji, H3i in He1. simplify_eq. cbn. lia.
      + destruct (decide (ht_next j n = j)) as [Ejj|Ejj].
        { rewrite Ejj, H3j in He1. done. }
        rewrite H3o in He1 by done.
        destruct (decide (he_psl e1 = 0)); [lia|].
        destruct (hw_prev _ _ _ Hh j e1 Hj) as (e' & He' & Hle'); [done|done|lia|].
        rewrite Ho in He'. simplify_eq. lia.
    - intros x _ Hx Hxj. assert (x = i) as -> by (by eapply next_inj).
      exists (e_dec e). split; [done|]. cbn. lia.
    - unfold keys. rewrite Hkv3. apply Hh. }
  destruct (IH sl2 j (he_psl e) Hh3) as (sl' & -> & Hwf' & Hlen' & Hkv').
  { fold sl3. pose proof (psum_insert sl1 i None (Some (e_dec e)) (hw_free _ _ _ Hh)) as Hs1.
    fold sl2 in Hs1. pose proof (psum_insert sl2 j _ None Hj2) as Hs2. fold sl3 in Hs2.
    cbn in Hs1, Hs2. lia. }
  exists sl'. split; [done|]. split; [done|]. split.
  { rewrite Hlen'. unfold sl2. by rewrite insert_length. }
  fold sl3 in Hkv'. by rewrite Hkv', Hkv3.
Qed.

Lemma erase_hole sl i e :
  wf sl → sl !! i = Some (Some e) → hwf (<[i := None]> sl) i (he_psl e).
Proof.
  intros Hwf Hi. pose proof (wf_pow _ Hwf) as Hp. assert (Hil : i < length sl) by (by eapply lookup_lt_Some).
  split; rewrite ?insert_length; [done|by apply list_lookup_insert| | | | |].
  - intros j f Hj. destruct (decide (j = i)) as [->|].
    + by rewrite list_lookup_insert in Hj.
    + rewrite list_lookup_insert_ne in Hj by done. by apply (wf_pos _ Hwf).
  - intros j f Hjl Hji Hj Hpsl.
    destruct (decide (ht_next j (length sl) = i)) as [E|E].
    { rewrite E, list_lookup_insert in Hj; done. }
    rewrite list_lookup_insert_ne in Hj by done. rewrite list_lookup_insert_ne by done.
    by apply (wf_prev _ Hwf).
  - intros f Hf. destruct (decide (ht_next i (length sl) = i)) as [E|E].
    { rewrite E, list_lookup_insert in Hf; done. }
    rewrite list_lookup_insert_ne in Hf by done.
    destruct (decide (he_psl f = 0)); [lia|].
    destruct (wf_prev _ Hwf i f Hil Hf) as (e' & He' & ?); [lia|]. rewrite Hi in He'. simplify_eq. lia.
  - intros j Hq Hj E. destruct (wf_prev _ Hwf j e Hj) as (e' & He' & ?); [by rewrite E|done|].
    destruct (decide (j = i)) as [->|].
    + (* a single bucket *)
      exfalso. destruct (wf_pos _ Hwf _ _ Hi) as (_ & _ & Hlt).
      destruct (next_case _ _ Hp Hil); lia.
    + rewrite list_lookup_insert_ne by done. by exists e'.
  - pose proof (kv_insert sl i (Some e) None Hi) as Hkv. cbn in Hkv.
    apply (fmap_Permutation fst) in Hkv. cbn in Hkv. pose proof (wf_nd _ Hwf) as Hnd. unfold keys in Hnd.
    rewrite <-Hkv in Hnd. by apply NoDup_cons in Hnd as [_ ?].
Qed.
End proofs.
