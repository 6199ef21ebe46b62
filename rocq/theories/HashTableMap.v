(** The hash table refines a finite map. *)
From Verif Require Import Base Bits HashTable HashTableProofs.
Ltac Zify.zify_post_hook ::= Z.div_mod_to_equations.

Section map.
Context {K V : Type} `{Countable K}.
Variable hsh : K → N.
Notation slots := (list (option (hent K V))).
Implicit Types sl : slots.
Implicit Types t : htab K V.

Definition ht_wf t : Prop := wf hsh (ht_slots t) ∧ ht_size t = length (kv (ht_slots t)).
Definition ht_abs t : gmap K V := list_to_map (kv (ht_slots t)).

Lemma kv_length_le sl : length (kv sl) ≤ length sl.
Proof. unfold kv. rewrite fmap_length. induction sl as [|[e|] sl IH]; cbn; lia. Qed.

Lemma kv_length_full sl : length (kv sl) < length sl → ∃ x, sl !! x = Some None.
Proof.
  unfold kv. rewrite fmap_length. induction sl as [|[e|] sl IH]; cbn; intros Hlt; [lia| |].
  - destruct IH as [x Hx]; [lia|]. by exists (S x).
  - by exists 0.
Qed.

Lemma abs_lookup t k v : ht_wf t →
  ht_abs t !! k = Some v ↔ ∃ i e, ht_slots t !! i = Some (Some e) ∧ he_key e = k ∧ he_val e = v.
Proof.
  intros [Hwf _]. unfold ht_abs. rewrite <-elem_of_list_to_map by apply (wf_nd _ _ Hwf). split.
  - apply kv_inv.
  - intros (i & e & Hi & <- & <-). by eapply kv_elem.
Qed.

Lemma abs_lookup_None t k : ht_abs t !! k = None ↔ k ∉ keys (ht_slots t).
Proof. unfold ht_abs. symmetry. apply not_elem_of_list_to_map. Qed.

Lemma abs_perm sl sl' : NoDup (keys sl) → kv sl ≡ₚ kv sl' →
  (list_to_map (kv sl) : gmap K V) = list_to_map (kv sl').
Proof. intros. by apply list_to_map_proper. Qed.

Lemma iter_perm t : ht_wf t → ht_iter t ≡ₚ map_to_list (ht_abs t).
Proof.
  intros [Hwf _]. unfold ht_abs. rewrite map_to_list_to_map by apply (wf_nd _ _ Hwf). done.
Qed.

Lemma iter_kv t : ht_iter t = kv (ht_slots t).
Proof. done. Qed.

Lemma size_spec t : ht_wf t → ht_size t = size (ht_abs t).
Proof.
  intros Hwf. change (size (ht_abs t)) with (length (map_to_list (ht_abs t))).
  rewrite <-(iter_perm t Hwf). apply Hwf.
Qed.

(** Lookup. *)
Lemma find_Some t i e : ht_wf t → ht_slots t !! i = Some (Some e) →
  ht_find hsh t (he_key e) = Some (Some i).
Proof.
  intros [Hwf _] Hi. pose proof (wf_pow _ _ Hwf) as Hp. pose proof (pow2_pos _ Hp).
  destruct (wf_pos _ _ Hwf _ _ Hi) as (_ & _ & Hlt).
  unfold ht_find. rewrite decide_False by lia. rewrite <-pos_0 by done.
  apply find_present; [done|done|lia|lia].
Qed.

Lemma find_None t k : ht_wf t → ht_abs t !! k = None → ht_find hsh t k = Some None.
Proof.
  intros [Hwf _] Hk%abs_lookup_None. pose proof (wf_pow _ _ Hwf) as Hp. pose proof (pow2_pos _ Hp).
  unfold ht_find. rewrite decide_False by lia.
  eapply find_absent; [done|done|by apply idx_lt|lia|lia].
Qed.

Lemma find_spec t k : ht_wf t →
  match ht_abs t !! k with
  | Some v => ∃ i, ht_find hsh t k = Some (Some i) ∧ ht_deref t i = Some v
  | None => ht_find hsh t k = Some None
  end.
Proof.
  intros Hwf. destruct (ht_abs t !! k) as [v|] eqn:E; [|by apply find_None].
  apply abs_lookup in E as (i & e & Hi & <- & <-); [|done]. exists i. split; [by apply find_Some|].
  unfold ht_deref. by rewrite Hi.
Qed.

Lemma at_spec t k : ht_wf t → ht_at hsh t k = Some (ht_abs t !! k).
Proof.
  intros Hwf. pose proof (find_spec t k Hwf) as Hs. unfold ht_at. destruct (ht_abs t !! k).
  - destruct Hs as (i & -> & Hd). cbn. by rewrite Hd.
  - by rewrite Hs.
Qed.

Lemma contains_spec t k : ht_wf t → ht_contains hsh t k = Some (bool_decide (is_Some (ht_abs t !! k))).
Proof.
  intros Hwf. pose proof (find_spec t k Hwf) as Hs. unfold ht_contains. destruct (ht_abs t !! k).
  - by destruct Hs as (i & -> & Hd).
  - by rewrite Hs.
Qed.

(** Construction and clearing. *)
Lemma empty_wf n : pow2 (N.of_nat n) → ht_wf (ht_make n) ∧ ht_abs (ht_make n) = ∅.
Proof.
  intros Hp. assert (kv (replicate n (None : option (hent K V))) = []) as Hkv.
  { clear Hp. induction n; [done|]. cbn. done. }
  assert (Hno : ∀ i (e : hent K V), replicate n None !! i ≠ Some (Some e)).
  { intros i e Hi. apply lookup_replicate in Hi as [? _]. done. }
  unfold ht_abs, ht_wf, ht_make. cbn [ht_slots ht_size]. rewrite Hkv. split; [|done]. split; [|done].
  split; rewrite ?replicate_length; [done| | |].
  - intros i e Hi. by apply Hno in Hi.
  - intros i e _ Hi. by apply Hno in Hi.
  - unfold keys. rewrite Hkv. constructor.
Qed.

Lemma clear_spec t : ht_wf t → ht_wf (ht_clear t) ∧ ht_abs (ht_clear t) = ∅.
Proof. intros [Hwf _]. apply (empty_wf (length (ht_slots t))), Hwf. Qed.

(** Updating a value in place. *)
Lemma store_wf t i e v :
  ht_wf t → ht_slots t !! i = Some (Some e) →
  let t' := HTab (<[i := Some (e_setval e v)]> (ht_slots t)) (ht_size t) in
  ht_wf t' ∧ ht_abs t' = <[he_key e := v]> (ht_abs t).
Proof.
  intros Hwft Hi. pose proof Hwft as [Hwf Hsz]. assert (Hil : i < length (ht_slots t)) by (by eapply lookup_lt_Some).
  set (sl' := <[i := Some (e_setval e v)]> (ht_slots t)).
  assert (Hlook : ∀ j f, sl' !! j = Some (Some f) →
    ∃ f0, ht_slots t !! j = Some (Some f0) ∧ he_key f0 = he_key f ∧ he_hash f0 = he_hash f ∧ he_psl f0 = he_psl f).
  { intros j f Hj. unfold sl' in Hj. destruct (decide (j = i)) as [->|].
    - rewrite list_lookup_insert in Hj by done. injection Hj as <-. exists e. done.
    - rewrite list_lookup_insert_ne in Hj by done. by exists f. }
  assert (Hback : ∀ j f, ht_slots t !! j = Some (Some f) →
    ∃ f0, sl' !! j = Some (Some f0) ∧ he_psl f0 = he_psl f).
  { intros j f Hj. unfold sl'. destruct (decide (j = i)) as [->|].
    - rewrite list_lookup_insert by done. rewrite Hi in Hj. injection Hj as <-. by eexists.
    - rewrite list_lookup_insert_ne by done. by exists f. }
  pose proof (kv_insert (ht_slots t) i _ (Some (e_setval e v)) Hi) as Hkv. fold sl' in Hkv. cbn in Hkv.
  assert (Hkeys : keys sl' ≡ₚ keys (ht_slots t)).
  { apply (fmap_Permutation fst) in Hkv. cbn in Hkv. by apply Permutation_cons_inv in Hkv. }
  assert (Hwf' : ht_wf (HTab sl' (ht_size t))).
  { split; cbn [ht_slots ht_size].
    - assert (length sl' = length (ht_slots t)) as Hlen by (unfold sl'; by rewrite insert_length).
      split; rewrite ?Hlen.
      + apply Hwf.
      + intros j f Hj. destruct (Hlook j f Hj) as (f0 & Hf0 & <- & <- & <-). by apply (wf_pos _ _ Hwf).
      + intros j f Hjl Hj Hpsl. destruct (Hlook _ f Hj) as (f0 & Hf0 & _ & _ & Epsl).
        destruct (wf_prev _ _ Hwf j f0 Hjl Hf0) as (e' & He' & ?); [lia|].
        destruct (Hback _ _ He') as (e'' & He'' & ?). exists e''. split; [done|lia].
      + rewrite Hkeys. apply Hwf.
    - rewrite Hsz. apply Permutation_length in Hkv. cbn in Hkv. lia. }
  split; [done|]. apply map_eq. intros k. apply option_eq. intros w.
  rewrite abs_lookup by done. cbn [ht_slots]. split.
  - intros (j & f & Hj & <- & <-). unfold sl' in Hj. destruct (decide (j = i)) as [->|Hne].
    + rewrite list_lookup_insert in Hj by done. injection Hj as <-. cbn. by rewrite lookup_insert.
    + rewrite list_lookup_insert_ne in Hj by done. rewrite lookup_insert_ne.
      2: { intros E. apply Hne. by eapply (keys_unique (ht_slots t)); [apply Hwf| | |]. }
      apply abs_lookup; [done|]. by exists j, f.
  - rewrite lookup_insert_Some. intros [[<- <-]|[Hne Hk]].
    + exists i, (e_setval e v). unfold sl'. by rewrite list_lookup_insert.
    + apply abs_lookup in Hk as (j & f & Hj & <- & <-); [|done]. exists j, f. split; [|done].
      unfold sl'. rewrite list_lookup_insert_ne; [done|]. intros ->. rewrite Hi in Hj. by simplify_eq.
Qed.

Lemma store_spec t i k v v' :
  ht_wf t → ht_find hsh t k = Some (Some i) → ht_abs t !! k = Some v →
  ∃ t', ht_store t i v' = Some t' ∧ ht_wf t' ∧ ht_abs t' = <[k := v']> (ht_abs t).
Proof.
  intros Hwf Hf Hk. apply abs_lookup in Hk as (j & e & Hj & <- & <-); [|done].
  rewrite (find_Some t j e Hwf Hj) in Hf. simplify_eq.
  unfold ht_store. rewrite Hj. cbn. destruct (store_wf t i e v' Hwf Hj). eexists. done.
Qed.

(** Raw insertion. *)
Lemma insert_raw_present asg t k v w :
  ht_wf t → ht_abs t !! k = Some w →
  ∃ t' i, ht_insert_raw hsh asg t k v = Some (t', (i, false)) ∧ ht_wf t' ∧
    ht_abs t' = (if asg then <[k := v]> (ht_abs t) else ht_abs t) ∧
    ht_find hsh t' k = Some (Some i).
Proof.
  intros Hwft Hk. pose proof Hwft as [Hwf Hsz]. apply abs_lookup in Hk as (j & e & Hj & <- & <-); [|done].
  unfold ht_insert_raw. rewrite <-pos_0 by apply Hwf.
  destruct (wf_pos _ _ Hwf _ _ Hj) as (_ & _ & Hlt).
  rewrite (insert_present hsh asg (ht_slots t) j e) by (done || lia). cbn.
  eexists _, _. split; [done|]. destruct asg.
  - destruct (store_wf t j e v Hwft Hj) as [Hwf' Habs]. split; [done|]. split; [done|].
    apply (find_Some _ j (e_setval e v) Hwf'). cbn. apply list_lookup_insert.
    by eapply lookup_lt_Some.
  - destruct t. split; [done|]. split; [done|]. by apply find_Some.
Qed.

Lemma insert_raw_absent asg t k v :
  ht_wf t → ht_abs t !! k = None → ht_size t < length (ht_slots t) →
  ∃ t' i, ht_insert_raw hsh asg t k v = Some (t', (i, true)) ∧ ht_wf t' ∧
    ht_abs t' = <[k := v]> (ht_abs t) ∧ length (ht_slots t') = length (ht_slots t) ∧
    ht_size t' = S (ht_size t) ∧
    ht_find hsh t' k = Some (Some i).
Proof.
  intros [Hwf Hsz] Hk Hlt. pose proof (wf_pow _ _ Hwf) as Hp.
  set (n := length (ht_slots t)) in *.
  destruct (kv_length_full (ht_slots t)) as [x Hx]; [unfold n in Hlt; lia|].
  apply abs_lookup_None in Hk.
  set (e0 := HEnt (hsh k) 0 k v). set (i0 := ht_idx (hsh k) n).
  assert (Hi0 : i0 < n) by (by apply idx_lt).
  assert (Hxn : x < n) by (by eapply lookup_lt_Some).
  assert (∃ d, d < n ∧ (i0 + d) mod n = x) as (d & Hd & Hdx).
  { destruct (decide (i0 ≤ x)).
    - exists (x - i0). split; [lia|]. rewrite Nat.mod_small; lia.
    - exists (x + n - i0). split; [lia|]. replace (i0 + (x + n - i0)) with (x + 1 * n) by lia.
      rewrite Nat.mod_add by lia. apply Nat.mod_small; lia. }
  destruct (insert_absent hsh asg (hsh k) (S n) (ht_slots t) e0 None d Hwf) as
    (sl' & j & Hins & Hwf' & Hlen & Hkv & _ & (e & Hj & Hje & Hve)).
  { split; [done|]. cbn. lia. }
  { done. } { lia. } { done. }
  { unfold e0. cbn. rewrite pos_0 by done. fold n. fold i0. by rewrite Hdx. }
  unfold ht_insert_raw. unfold e0 in Hins. cbn [he_hash he_psl] in Hins. rewrite pos_0 in Hins by done.
  fold n. fold n in Hins. rewrite Hins. cbn. eexists _, _. split; [done|].
  assert (Hwft : ht_wf (HTab sl' (S (ht_size t)))).
  { split; [done|]. cbn [ht_slots ht_size]. rewrite Hkv. cbn [length]. lia. }
  split; [done|]. split.
  { unfold ht_abs. cbn [ht_slots]. rewrite (list_to_map_proper _ _ (wf_nd _ _ Hwf') Hkv). done. }
  split; [done|]. split; [done|].
  rewrite <-(find_Some _ j e Hwft Hj). by rewrite Hje.
Qed.

(** Rehashing. *)
Lemma insert_all_spec l t :
  ht_wf t → NoDup l.*1 → (∀ k, k ∈ l.*1 → ht_abs t !! k = None) →
  ht_size t + length l ≤ length (ht_slots t) →
  ∃ t', insert_all hsh t l = Some t' ∧ ht_wf t' ∧
    ht_abs t' = list_to_map l ∪ ht_abs t ∧ length (ht_slots t') = length (ht_slots t).
Proof.
  revert t. induction l as [|[k v] l IH]; intros t Hwf Hnd Hfresh Hlen.
  - exists t. split; [done|]. split; [done|]. split; [|done]. cbn. by rewrite (left_id_L ∅ _).
  - cbn in Hnd, Hlen. apply NoDup_cons in Hnd as [Hk Hnd].
    destruct (insert_raw_absent false t k v Hwf) as (t1 & i & Hins & Hwf1 & Habs & Hl & Hs & _).
    { apply Hfresh. cbn. by left. } { lia. }
    destruct (IH t1 Hwf1 Hnd) as (t' & Hall & Hwf' & Habs' & Hl').
    { intros k' Hk'. rewrite Habs, lookup_insert_ne by (intros ->; done). apply Hfresh. cbn. by right. }
    { lia. }
    exists t'. cbn [insert_all]. rewrite Hins. cbn. split; [done|]. split; [done|]. split; [|lia].
    rewrite Habs', Habs. cbn. rewrite <-insert_union_r by (by apply not_elem_of_list_to_map_1).
    by rewrite insert_union_l.
Qed.

Lemma reserve_spec t n : ht_wf t → pow2 (N.of_nat n) →
  ∃ t', ht_reserve hsh t n = Some t' ∧ ht_wf t' ∧ ht_abs t' = ht_abs t ∧
    length (ht_slots t') = (if decide (n < ht_size t) then length (ht_slots t) else n).
Proof.
  intros Hwf Hp. unfold ht_reserve. case_decide as Hs; [by exists t|].
  destruct (empty_wf n Hp) as [Hwf0 Habs0].
  destruct (insert_all_spec (ht_iter t) (ht_make n) Hwf0) as (t' & Hall & Hwf' & Habs & Hlen).
  - apply (wf_nd _ _ (proj1 Hwf)).
  - intros k _. by rewrite Habs0.
  - cbn. rewrite replicate_length. rewrite iter_kv, <-(proj2 Hwf). lia.
  - exists t'. split; [done|]. split; [done|]. split.
    + rewrite Habs, Habs0, (right_id_L ∅ _). done.
    + rewrite Hlen. cbn. by rewrite replicate_length.
Qed.

Lemma approx_85_lt n : (approx_85_percent n <= n)%N.
Proof. unfold approx_85_percent. rewrite N.shiftr_div_pow2. change (2 ^ 10)%N with 1024%N. lia. Qed.

Lemma grow_spec t : ht_wf t →
  ∃ t', ht_grow hsh t = Some t' ∧ ht_wf t' ∧ ht_abs t' = ht_abs t ∧ ht_size t' < length (ht_slots t').
Proof.
  intros Hwf. pose proof (wf_pow _ _ (proj1 Hwf)) as Hp. pose proof (pow2_pos _ Hp).
  assert (Hle : ht_size t ≤ length (ht_slots t)).
  { rewrite (proj2 Hwf). apply kv_length_le. }
  unfold ht_grow. case_decide as Hs.
  - rewrite N.shiftl_mul_pow2. change (2 ^ 1)%N with 2%N.
    destruct (reserve_spec t (N.to_nat (N.of_nat (length (ht_slots t)) * 2)) Hwf) as (t' & -> & Hwf' & Habs & Hlen).
    { rewrite N2Nat.id, N.mul_comm. by apply pow2_double. }
    exists t'. split; [done|]. split; [done|]. split; [done|].
    rewrite Hlen, (size_spec t' Hwf'), Habs, <-(size_spec t Hwf).
    rewrite decide_False by lia. lia.
  - exists t. split; [done|]. split; [done|]. split; [done|].
    unfold approx_85_percent in Hs. rewrite N.shiftr_div_pow2 in Hs. change (2 ^ 10)%N with 1024%N in Hs. lia.
Qed.

Lemma insert_spec (asg : bool) t k v : ht_wf t →
  ∃ t' i, (t1 ← ht_grow hsh t; ht_insert_raw hsh asg t1 k v) =
      Some (t', (i, bool_decide (ht_abs t !! k = None))) ∧ ht_wf t' ∧
    ht_abs t' = (match ht_abs t !! k with
                 | Some _ => if asg then <[k := v]> (ht_abs t) else ht_abs t
                 | None => <[k := v]> (ht_abs t)
                 end) ∧
    ht_find hsh t' k = Some (Some i).
Proof.
  intros Hwf. destruct (grow_spec t Hwf) as (t1 & -> & Hwf1 & Habs1 & Hlt). cbn [mbind option_bind].
  rewrite <-Habs1. destruct (ht_abs t1 !! k) as [w|] eqn:E.
  - destruct (insert_raw_present asg t1 k v w Hwf1 E) as (t' & i & -> & ?). by exists t', i.
  - destruct (insert_raw_absent asg t1 k v Hwf1 E Hlt) as (t' & i & -> & ? & ? & _ & _ & ?). by exists t', i.
Qed.

Lemma emplace_spec t k v : ht_wf t →
  ∃ t' i, ht_emplace hsh t k v = Some (t', (i, bool_decide (ht_abs t !! k = None))) ∧ ht_wf t' ∧
    ht_abs t' = (match ht_abs t !! k with Some _ => ht_abs t | None => <[k := v]> (ht_abs t) end) ∧
    ht_find hsh t' k = Some (Some i).
Proof. intros Hwf. exact (insert_spec false t k v Hwf). Qed.

Lemma insert_or_assign_spec t k v : ht_wf t →
  ∃ t' i, ht_insert_or_assign hsh t k v = Some (t', (i, bool_decide (ht_abs t !! k = None))) ∧ ht_wf t' ∧
    ht_abs t' = <[k := v]> (ht_abs t) ∧ ht_find hsh t' k = Some (Some i).
Proof.
  intros Hwf. destruct (insert_spec true t k v Hwf) as (t' & i & Hr & Hwf' & Habs & Hf).
  exists t', i. split; [done|]. split; [done|]. split; [|done]. rewrite Habs. by destruct (ht_abs t !! k).
Qed.

Lemma index_spec dflt t k : ht_wf t →
  ∃ t' i, ht_index hsh dflt t k = Some (t', i) ∧ ht_wf t' ∧
    ht_abs t' = (match ht_abs t !! k with Some _ => ht_abs t | None => <[k := dflt]> (ht_abs t) end) ∧
    ht_find hsh t' k = Some (Some i).
Proof.
  intros Hwf. pose proof (find_spec t k Hwf) as Hs. unfold ht_index.
  destruct (ht_abs t !! k) eqn:E.
  - destruct Hs as (i & Hf & _). rewrite Hf. cbn. by exists t, i.
  - rewrite Hs. cbn [mbind option_bind]. destruct (emplace_spec t k dflt Hwf) as (t' & i & -> & Hwf' & Habs & Hf). cbn.
    rewrite E in Habs. by exists t', i.
Qed.

(** Erasure. *)
Lemma shrink_spec n t : ht_wf t → pow2 (N.of_nat n) →
  ∃ t', ht_shrink hsh n t = Some t' ∧ ht_wf t' ∧ ht_abs t' = ht_abs t.
Proof.
  intros Hwf Hp. unfold ht_shrink. case_decide as Hs; [|by exists t].
  rewrite N.shiftr_div_pow2. change (2 ^ 1)%N with 2%N.
  unfold approx_40_percent in Hs. rewrite N.shiftr_div_pow2 in Hs. change (2 ^ 10)%N with 1024%N in Hs.
  destruct (reserve_spec t (N.to_nat (N.of_nat n / 2)) Hwf) as (t' & -> & ? & ? & _).
  { rewrite N2Nat.id. apply pow2_half; [done|]. unfold default_bucket_count in Hs. lia. }
  by exists t'.
Qed.

Lemma erase_spec t k : ht_wf t →
  ∃ t', ht_erase hsh t k = Some t' ∧ ht_wf t' ∧ ht_abs t' = delete k (ht_abs t).
Proof.
  intros Hwft. pose proof Hwft as [Hwf Hsz]. pose proof (wf_pow _ _ Hwf) as Hp.
  unfold ht_erase. destruct (ht_abs t !! k) as [v|] eqn:E.
  - apply abs_lookup in E as (j & e & Hj & <- & Hv); [|done].
    destruct (wf_pos _ _ Hwf _ _ Hj) as (_ & _ & Hlt).
    rewrite <-pos_0 by done. rewrite (erase_find_present hsh _ j e) by (done || lia). cbn [mbind option_bind].
    destruct (shift_ok hsh (S (psum (ht_slots t))) (ht_slots t) j (he_psl e)) as (sl' & Hsh & Hwf' & Hlen & Hkv).
    { by apply erase_hole. }
    { pose proof (psum_insert (ht_slots t) j (Some e) None Hj). cbn in *. lia. }
    rewrite Hsh. cbn [mbind option_bind].
    pose proof (kv_insert (ht_slots t) j (Some e) None Hj) as Hkv0. cbn in Hkv0. rewrite <-Hkv in Hkv0.
    assert (Hwft' : ht_wf (HTab sl' (pred (ht_size t)))).
    { split; [done|]. cbn [ht_slots ht_size]. rewrite Hsz, <-Hkv0. done. }
    destruct (shrink_spec (length (ht_slots t)) _ Hwft' Hp) as (t' & -> & Hwf'' & Habs).
    exists t'. split; [done|]. split; [done|]. rewrite Habs. unfold ht_abs. cbn [ht_slots].
    symmetry in Hkv0. rewrite (list_to_map_proper _ _ (wf_nd _ _ Hwf) Hkv0). cbn.
    rewrite delete_insert; [done|]. apply not_elem_of_list_to_map_1.
    pose proof (wf_nd _ _ Hwf) as Hnd. unfold keys in Hnd. rewrite Hkv0 in Hnd.
    by apply NoDup_cons in Hnd as [? _].
  - rewrite (erase_find_absent hsh (ht_slots t)).
    + cbn. exists t. split; [done|]. split; [done|]. by rewrite delete_notin.
    + done.
    + by apply abs_lookup_None.
    + by apply idx_lt.
    + lia.
    + lia.
Qed.
End map.
