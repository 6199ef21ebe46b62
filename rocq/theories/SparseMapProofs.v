(** The sparse map refines a finite map. *)
From Verif Require Import Base SparseMap.
Ltac Zify.zify_post_hook ::= Z.div_mod_to_equations.

Section proofs.
Context {V : Type} (kmod : N).
Implicit Types m : smap V.

Definition sm_abs m : gmap N V := list_to_map (sm_dense m).

Record sm_wf m : Prop := {
  swf_cap : sm_cap m = N.of_nat (length (sm_sparse m));
  swf_size : sm_size m = N.of_nat (length (sm_dense m));
  swf_lt : (sm_size m < kmod)%N;
  swf_nd : NoDup (sm_dense m).*1;
  swf_back : ∀ i k v, sm_dense m !! i = Some (k, v) → sm_sparse m !! N.to_nat k = Some (N.of_nat i) }.

Lemma sm_wf_init : (0 < kmod)%N → sm_wf sm_init.
Proof. intros. split; simpl; try done. constructor. Qed.

Lemma sm_abs_init : sm_abs sm_init = ∅.
Proof. done. Qed.

Lemma sm_abs_Some m k v : sm_wf m → sm_abs m !! k = Some v ↔ ∃ i, sm_dense m !! i = Some (k, v).
Proof.
  intros Hwf. unfold sm_abs. rewrite <- elem_of_list_to_map by apply Hwf.
  apply elem_of_list_lookup.
Qed.

Lemma sm_abs_None m k : sm_wf m → sm_abs m !! k = None ↔ k ∉ (sm_dense m).*1.
Proof. intros Hwf. unfold sm_abs. symmetry. apply not_elem_of_list_to_map. Qed.

Lemma sm_find_present m k v : sm_wf m → sm_abs m !! k = Some v →
  ∃ i, sm_find m k = Some (Some (N.of_nat i)) ∧ sm_dense m !! i = Some (k, v) ∧
       sm_sparse m !! N.to_nat k = Some (N.of_nat i).
Proof.
  intros Hwf [i Hi]%sm_abs_Some; [|done]. exists i.
  pose proof (swf_back _ Hwf _ _ _ Hi) as Hs. split; [|done].
  unfold sm_find. rewrite decide_True.
  2:{ rewrite (swf_cap _ Hwf). apply lookup_lt_Some in Hs. lia. }
  rewrite Hs. cbn. rewrite decide_True.
  2:{ rewrite (swf_size _ Hwf). apply lookup_lt_Some in Hi. lia. }
  rewrite Nat2N.id, Hi. cbn. by rewrite decide_True.
Qed.

Lemma sm_find_absent m k : sm_wf m → sm_abs m !! k = None → sm_find m k = Some None.
Proof.
  intros Hwf Hn. unfold sm_find. case_decide as Hc; [|done].
  destruct (lookup_lt_is_Some_2 (sm_sparse m) (N.to_nat k)) as [s Hs].
  { rewrite (swf_cap _ Hwf) in Hc. lia. }
  rewrite Hs. cbn. case_decide as Hlt; [|done].
  destruct (lookup_lt_is_Some_2 (sm_dense m) (N.to_nat s)) as [[k' v] Hd].
  { rewrite (swf_size _ Hwf) in Hlt. lia. }
  rewrite Hd. cbn. case_decide as Hk; [|done].
  simpl in Hk. subst k'. exfalso.
  assert (sm_abs m !! k = Some v) by (apply sm_abs_Some; eauto). congruence.
Qed.

Lemma sm_contains_spec m k : sm_wf m → sm_contains m k = Some (bool_decide (is_Some (sm_abs m !! k))).
Proof.
  intros Hwf. unfold sm_contains. destruct (sm_abs m !! k) as [v|] eqn:E.
  - destruct (sm_find_present m k v Hwf E) as (i & -> & _). cbn. done.
  - rewrite (sm_find_absent m k Hwf E). done.
Qed.

Lemma sm_at_spec m k : sm_wf m → sm_at m k = Some (sm_abs m !! k).
Proof.
  intros Hwf. unfold sm_at. rewrite (sm_contains_spec _ _ Hwf). cbn.
  destruct (sm_abs m !! k) as [v|] eqn:E.
  - rewrite bool_decide_true by eauto.
    destruct (sm_find_present m k v Hwf E) as (i & _ & Hd & Hs). rewrite Hs. cbn.
    by rewrite Nat2N.id, Hd.
  - rewrite bool_decide_false; [done|]. by intros [? ?].
Qed.

Lemma sm_emplace_present m k v v' : sm_wf m → sm_abs m !! k = Some v →
  ∃ i, sm_emplace kmod m k v' = Some (m, (N.of_nat i, false)) ∧ sm_dense m !! i = Some (k, v).
Proof.
  intros Hwf E. unfold sm_emplace. rewrite (sm_contains_spec _ _ Hwf), E. cbn.
  destruct (sm_find_present m k v Hwf E) as (i & _ & Hd & Hs). rewrite Hs. cbn. eauto.
Qed.

Lemma reserve_sparse_props m c :
  sm_wf m → sm_wf (sm_reserve_sparse m c) ∧ sm_dense (sm_reserve_sparse m c) = sm_dense m ∧
  sm_size (sm_reserve_sparse m c) = sm_size m ∧
  N.to_nat c ≤ length (sm_sparse (sm_reserve_sparse m c)).
Proof.
  intros Hwf. unfold sm_reserve_sparse. pose proof (swf_cap _ Hwf).
  case_decide as Hc; simpl; [|repeat split; try apply Hwf; lia].
  split; [|split; [done|split; [done|]]].
  2:{ rewrite resize_length. lia. }
  destruct Hwf. split; simpl; try done.
  - rewrite resize_length. lia.
  - intros i k v Hi. pose proof (swf_back0 _ _ _ Hi) as Hs.
    rewrite lookup_resize; [done| |by eapply lookup_lt_Some].
    apply lookup_lt_Some in Hs. lia.
Qed.

Lemma sm_emplace_absent m k v : sm_wf m → sm_abs m !! k = None → (sm_size m + 1 < kmod)%N →
  ∃ m', sm_emplace kmod m k v = Some (m', (N.of_nat (length (sm_dense m)), true)) ∧ sm_wf m' ∧
        sm_dense m' = sm_dense m ++ [(k, v)] ∧ sm_abs m' = <[k := v]> (sm_abs m).
Proof.
  intros Hwf E Hlt. unfold sm_emplace. rewrite (sm_contains_spec _ _ Hwf), E. cbn.
  destruct (reserve_sparse_props m (k + 1) Hwf) as (Hwf1 & Hd & Hsz & Hlen).
  set (m1 := sm_reserve_sparse m (k + 1)) in *.
  destruct (lookup_lt_is_Some_2 (sm_sparse m1) (N.to_nat k)) as [x Hx]; [lia|].
  rewrite Hx. cbn. rewrite Hd, Hsz.
  assert (k ∉ (sm_dense m).*1) as Hnk by (by apply sm_abs_None).
  pose proof (swf_size _ Hwf) as Hs. rewrite Hs in Hlt |- *.
  eexists. split; [done|]. split; [|split; [done|]].
  - split; simpl.
    + rewrite insert_length. apply Hwf1.
    + rewrite app_length. simpl. rewrite N.mod_small by lia. lia.
    + rewrite N.mod_small by lia. done.
    + rewrite fmap_app. simpl. apply NoDup_app. split; [apply Hwf|]. split; [set_solver|].
      apply NoDup_singleton.
    + intros i k' v' [Hi|[Hi1 Hi2]]%lookup_app_Some.
      * assert (k' ≠ k). { intros ->. apply Hnk. apply elem_of_list_fmap. exists (k, v').
          split; [done|]. by eapply elem_of_list_lookup_2. }
        rewrite list_lookup_insert_ne by lia. rewrite <- Hd in Hi.
        by apply (swf_back _ Hwf1 i k' v').
      * apply list_lookup_singleton_Some in Hi2 as [Hi2 [= <- <-]].
        rewrite list_lookup_insert by lia. f_equal. lia.
  - unfold sm_abs. simpl. rewrite list_to_map_app. simpl.
    apply map_eq. intros k'. rewrite lookup_union. simpl.
    destruct (decide (k' = k)) as [->|Hne].
    + rewrite lookup_insert. rewrite (proj1 (not_elem_of_list_to_map _ _)) by done.
      by rewrite lookup_insert.
    + rewrite !lookup_insert_ne by done. rewrite lookup_empty. by destruct (_ !! k').
Qed.

Lemma list_to_map_insert_dense (d : list (N * V)) i k v v' :
  NoDup d.*1 → d !! i = Some (k, v) →
  (list_to_map (<[i := (k, v')]> d) : gmap N V) = <[k := v']> (list_to_map d).
Proof.
  intros Hnd Hi.
  assert ((<[i := (k, v')]> d).*1 = d.*1) as Hk.
  { rewrite list_fmap_insert. apply list_insert_id. rewrite list_lookup_fmap, Hi. done. }
  apply map_eq. intros k'. apply option_eq. intros w.
  rewrite <- elem_of_list_to_map by (by rewrite Hk).
  destruct (decide (k' = k)) as [->|Hne].
  - rewrite lookup_insert. split.
    + intros [j Hj]%elem_of_list_lookup.
      destruct (decide (i = j)) as [->|].
      * rewrite list_lookup_insert in Hj by (by eapply lookup_lt_Some). congruence.
      * rewrite list_lookup_insert_ne in Hj by done. exfalso.
        assert (i = j); [|done].
        eapply (NoDup_lookup d.*1 i j k); [done|rewrite list_lookup_fmap, Hi; done|].
        rewrite list_lookup_fmap, Hj. done.
    + intros [= ->]. apply elem_of_list_lookup. exists i.
      apply list_lookup_insert. by eapply lookup_lt_Some.
  - rewrite lookup_insert_ne by done. rewrite <- elem_of_list_to_map by done.
    rewrite !elem_of_list_lookup. split; intros [j Hj]; exists j.
    + destruct (decide (i = j)) as [->|].
      * rewrite list_lookup_insert in Hj by (by eapply lookup_lt_Some). congruence.
      * by rewrite list_lookup_insert_ne in Hj.
    + destruct (decide (i = j)) as [->|].
      * congruence.
      * by rewrite list_lookup_insert_ne.
Qed.

Lemma dense_update_wf m i k v v' :
  sm_wf m → sm_dense m !! i = Some (k, v) →
  sm_wf (SMap (<[i := (k, v')]> (sm_dense m)) (sm_sparse m) (sm_size m) (sm_cap m)).
Proof.
  intros Hwf Hi. destruct Hwf. split; simpl; try done.
  - by rewrite insert_length.
  - rewrite list_fmap_insert. rewrite list_insert_id; [done|]. by rewrite list_lookup_fmap, Hi.
  - intros j k' w Hj. destruct (decide (i = j)) as [->|].
    + rewrite list_lookup_insert in Hj by (by eapply lookup_lt_Some).
      injection Hj as <- <-. by eapply swf_back0.
    + rewrite list_lookup_insert_ne in Hj by done. by eapply swf_back0.
Qed.

(** [map[k] = v]; only a new key needs room in the key type. *)
Lemma sm_assign_spec (dflt : V) m k v : sm_wf m →
  (is_Some (sm_abs m !! k) ∨ (sm_size m + 1 < kmod)%N) →
  ∃ m', sm_assign kmod dflt m k v = Some m' ∧ sm_wf m' ∧ sm_abs m' = <[k := v]> (sm_abs m).
Proof.
  intros Hwf Hroom. unfold sm_assign. destruct (sm_abs m !! k) as [w|] eqn:E.
  - destruct (sm_emplace_present m k w dflt Hwf E) as (i & -> & Hd). cbn.
    rewrite Nat2N.id, Hd. cbn. eexists. split; [done|]. split; [by eapply dense_update_wf|].
    unfold sm_abs. simpl. eapply list_to_map_insert_dense; [apply Hwf|done].
  - destruct Hroom as [[? ?]|Hroom]; [done|].
    destruct (sm_emplace_absent m k dflt Hwf E Hroom) as (m1 & -> & Hwf1 & Hd & Habs). cbn.
    assert (sm_dense m1 !! length (sm_dense m) = Some (k, dflt)) as Hl.
    { rewrite Hd, lookup_app_r, Nat.sub_diag by lia. done. }
    rewrite Nat2N.id, Hl. cbn. eexists. split; [done|]. split; [by eapply dense_update_wf|].
    unfold sm_abs at 1. simpl. erewrite list_to_map_insert_dense; [|apply Hwf1|done].
    fold (sm_abs m1). rewrite Habs. by rewrite insert_insert.
Qed.

Lemma sm_erase_absent m k : sm_wf m → sm_abs m !! k = None → sm_erase kmod m k = Some (m, 0%N).
Proof.
  intros Hwf E. unfold sm_erase. rewrite (sm_contains_spec _ _ Hwf), E. done.
Qed.

Lemma sm_erase_present m k v : sm_wf m → sm_abs m !! k = Some v →
  ∃ m', sm_erase kmod m k = Some (m', 1%N) ∧ sm_wf m' ∧ sm_abs m' = delete k (sm_abs m).
Proof.
  intros Hwf E. unfold sm_erase. rewrite (sm_contains_spec _ _ Hwf), E. cbn.
  destruct (sm_find_present m k v Hwf E) as (i & _ & Hd & Hs). rewrite Hs. cbn.
  destruct (last (sm_dense m)) as [[kb vb]|] eqn:Eb.
  2:{ apply last_None in Eb. by rewrite Eb in Hd. }
  cbn. rewrite Nat2N.id, Hd. cbn.
  pose proof (last_snoc_inv _ _ Eb) as Esn.
  set (d := pop_back (sm_dense m)) in *.
  pose proof (swf_size _ Hwf) as Hsz. pose proof (swf_lt _ Hwf) as Hlt.
  assert (length (sm_dense m) = S (length d)) as Hlen by (rewrite Esn, app_length; simpl; lia).
  assert (((sm_size m + kmod - 1) mod kmod = N.of_nat (length d))%N) as Hdec.
  { rewrite Hsz, Hlen. rewrite Hsz, Hlen in Hlt.
    replace (N.of_nat (S (length d)) + kmod - 1)%N with (N.of_nat (length d) + 1 * kmod)%N by lia.
    rewrite N.mod_add by lia. apply N.mod_small. lia. }
  rewrite Hdec, Nat2N.id.
  assert (i ≤ length d) as Hid by (apply lookup_lt_Some in Hd; lia).
  assert (sm_dense m !! length d = Some (kb, vb)) as Hback.
  { rewrite Esn, lookup_app_r, Nat.sub_diag by lia. done. }
  assert (<[i:=(kb, vb)]> (sm_dense m) !! length d = Some (kb, vb)) as Hl2.
  { destruct (decide (i = length d)) as [->|].
    - apply list_lookup_insert. lia.
    - rewrite list_lookup_insert_ne by done. done. }
  rewrite Hl2. cbn. rewrite (swf_back _ Hwf _ _ _ Hback). cbn.
  eexists. split; [done|].
  assert (pop_back (<[i:=(kb, vb)]> (sm_dense m)) =
     if decide (i = length d) then d else <[i := (kb, vb)]> d) as Hpop.
  { destruct (decide (i = length d)) as [->|Hne].
    - rewrite Esn. rewrite insert_app_r_alt by lia. rewrite Nat.sub_diag. simpl. by rewrite pop_back_snoc.
    - rewrite Esn. rewrite insert_app_l by lia. by rewrite pop_back_snoc. }
  rewrite Hpop.
  assert (NoDup (d.*1 ++ [kb])) as Hnd.
  { pose proof (swf_nd _ Hwf) as H. rewrite Esn in H. by rewrite fmap_app in H. }
  apply NoDup_app in Hnd as (Hnd & Hkb & _).
  assert (∀ j k' w, (if decide (i = length d) then d else <[i:=(kb, vb)]> d) !! j = Some (k', w) ↔
      (k' ≠ k ∧ ((j ≠ i ∧ d !! j = Some (k', w)) ∨ (j = i ∧ i < length d ∧ k' = kb ∧ w = vb)))) as Hlook.
  { intros j k' w.
    assert (∀ j k' w, d !! j = Some (k', w) → sm_dense m !! j = Some (k', w)) as Hdm.
    { intros j' k'' w' H. rewrite Esn. by apply lookup_app_l_Some. }
    assert (∀ j w, d !! j = Some (k, w) → j = i) as Huniq.
    { intros j' w' H%Hdm. eapply (NoDup_lookup (sm_dense m).*1 j' i k); [apply Hwf| |].
      - by rewrite list_lookup_fmap, H.
      - by rewrite list_lookup_fmap, Hd. }
    destruct (decide (i = length d)) as [Ei|Hne].
    - split.
      + intros Hj. assert (j ≠ i) by (apply lookup_lt_Some in Hj; lia). split; [|by left].
        intros ->. by apply Huniq in Hj.
      + intros [_ [[_ ?]|(? & ? & _)]]; [done|lia].
    - assert (kb ≠ k) as Hkbk.
      { intros ->. assert (length d = i); [|done].
        eapply (NoDup_lookup (sm_dense m).*1 _ _ k); [apply Hwf|by rewrite list_lookup_fmap, Hback|].
        by rewrite list_lookup_fmap, Hd. }
      destruct (decide (i = j)) as [<-|Hij].
      + rewrite list_lookup_insert by lia. split.
        * intros [= <- <-]. split; [done|]. right. repeat split; lia.
        * intros [_ [[? _]|(_ & _ & -> & ->)]]; done.
      + rewrite list_lookup_insert_ne by done. split.
        * intros Hj. split; [|by left]. intros ->. by apply Huniq in Hj.
        * intros [_ [[_ ?]|(? & _)]]; [done|lia]. }
  set (d' := if decide (i = length d) then d else <[i:=(kb, vb)]> d) in *.
  assert (length d' = length d) as Hlen'.
  { unfold d'. case_decide; [done|]. by rewrite insert_length. }
  assert (NoDup d'.*1) as Hnd'.
  { apply NoDup_alt. intros a b x Ha Hb.
    rewrite list_lookup_fmap in Ha, Hb.
    destruct (d' !! a) as [[ka va]|] eqn:Ea; [|done]. destruct (d' !! b) as [[kb' vb']|] eqn:Eb'; [|done].
    simpl in Ha, Hb. injection Ha as ->. injection Hb as ->.
    apply Hlook in Ea as [_ Ea]. apply Hlook in Eb' as [_ Eb'].
    destruct Ea as [[Ha1 Ha2]|(-> & Ha2 & -> & _)]; destruct Eb' as [[Hb1 Hb2]|(-> & Hb2 & Hb3 & _)].
    - eapply (NoDup_lookup d.*1 a b x); [done|by rewrite list_lookup_fmap, Ha2|by rewrite list_lookup_fmap, Hb2].
    - exfalso. subst x. apply (Hkb kb); [|set_solver]. apply elem_of_list_fmap. exists (kb, va).
      split; [done|]. by eapply elem_of_list_lookup_2.
    - exfalso. apply (Hkb kb); [|set_solver]. apply elem_of_list_fmap. exists (kb, vb').
      split; [done|]. by eapply elem_of_list_lookup_2.
    - done. }
  split.
  - split; simpl.
    + rewrite insert_length. apply Hwf.
    + by rewrite Hlen'.
    + rewrite Hsz, Hlen in Hlt. lia.
    + done.
    + intros j k' w Hj. apply Hlook in Hj as [Hk' [[Hji Hj]|(-> & Hil & -> & ->)]].
      * assert (k' ≠ kb).
        { intros ->. apply (Hkb kb); [|set_solver]. apply elem_of_list_fmap. exists (kb, w).
          split; [done|]. by eapply elem_of_list_lookup_2. }
        rewrite list_lookup_insert_ne by lia. apply (swf_back _ Hwf j k' w).
        rewrite Esn. by apply lookup_app_l_Some.
      * rewrite list_lookup_insert; [done|].
        pose proof (swf_back _ Hwf _ _ _ Hback) as Hb. by apply lookup_lt_Some in Hb.
  - apply map_eq. intros k'. apply option_eq. intros w.
    unfold sm_abs at 1. simpl. rewrite <- elem_of_list_to_map by done.
    rewrite elem_of_list_lookup.
    rewrite lookup_delete_Some. rewrite sm_abs_Some by done. split.
    + intros [j Hj]. apply Hlook in Hj as [Hk' Hj]. split; [done|].
      destruct Hj as [[Hji Hj]|(-> & Hil & -> & ->)].
      * exists j. rewrite Esn. by apply lookup_app_l_Some.
      * eauto.
    + intros [Hk' [j Hj]]. 
      assert (j < length (sm_dense m)) as Hjl by (by eapply lookup_lt_Some).
      destruct (decide (j = length d)) as [->|Hjd].
      * rewrite Hback in Hj. injection Hj as <- <-. exists i. apply Hlook. split; [done|]. right.
        split; [done|]. split; [|done].
        destruct (decide (i = length d)) as [->|]; [|lia]. exfalso. rewrite Hback in Hd. congruence.
      * exists j. apply Hlook. split; [done|]. left. split; [intros ->; congruence|].
        rewrite Esn in Hj. rewrite lookup_app_l in Hj by lia. done.
Qed.

Lemma sm_clear_spec m : sm_wf m → sm_wf (sm_clear m) ∧ sm_abs (sm_clear m) = ∅.
Proof.
  intros []. split; [|done]. split; simpl; try done; [|constructor].
  eapply N.le_lt_trans; [|done]. lia.
Qed.

Lemma sm_dense_perm m : sm_wf m → sm_dense m ≡ₚ map_to_list (sm_abs m).
Proof. intros Hwf. unfold sm_abs. symmetry. apply map_to_list_to_map. apply Hwf. Qed.

Lemma sm_size_spec m : sm_wf m → sm_size m = N.of_nat (size (sm_abs m)).
Proof.
  intros Hwf. rewrite (swf_size _ Hwf). f_equal.
  change (size (sm_abs m)) with (length (map_to_list (sm_abs m))).
  apply Permutation_length. by apply sm_dense_perm.
Qed.

End proofs.
