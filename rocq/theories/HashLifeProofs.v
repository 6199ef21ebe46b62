(** Lifetimes of the elements of hash tables. *)
From Verif Require Import Base Bits HashTable HashTableProofs HashTableMap HashLife.
Ltac Zify.zify_post_hook ::= Z.div_mod_to_equations.

Section life.
Context {K V : Type} `{Countable K}.
Variable hsh : K → N.
Notation slots := (list (option (hent K V))).
Implicit Types (sl : slots) (lv : list bool) (t : ltab K V).
Local Arguments objs : simpl never.

(** Occupied buckets hold objects. *)
Definition covered sl lv : Prop := length lv = length sl ∧ ∀ i e, sl !! i = Some (Some e) → lv !! i = Some true.
(** [m] objects are lost or lie in unoccupied buckets. *)
Definition lgood t (m : nat) : Prop :=
  covered (ht_slots (lt_tab t)) (lt_obj t) ∧ lt_lost t + objs (lt_obj t) = length (kv (ht_slots (lt_tab t))) + m.

Lemma lt_at_eq sl lv i : covered sl lv → lt_at sl lv i = sl !! i.
Proof.
  intros [Hl Hc]. unfold lt_at. destruct (sl !! i) as [o|] eqn:E; [|done]. cbn.
  pose proof (lookup_lt_Some _ _ _ E) as Hi. rewrite <-Hl in Hi. apply lookup_lt_is_Some in Hi as [b Hb]. rewrite Hb. cbn.
  destruct o as [e|]; [|done]. rewrite (Hc i e E) in Hb. by injection Hb as <-.
Qed.

Lemma covered_insert sl lv i o : covered sl lv → lv !! i = Some true → covered (<[i := o]> sl) lv.
Proof.
  intros [Hl Hc] Hi. split; [by rewrite insert_length|]. intros j e Hj.
  apply list_lookup_insert_Some in Hj as [(-> & _ & _)|[_ Hj]]; [done|by eapply Hc].
Qed.

Lemma covered_none sl lv i : covered sl lv → covered (<[i := None]> sl) lv.
Proof.
  intros [Hl Hc]. split; [by rewrite insert_length|]. intros j e Hj.
  apply list_lookup_insert_Some in Hj as [(_ & ? & _)|[_ Hj]]; [done|by eapply Hc].
Qed.

Lemma objs_cons (c : bool) lv : objs (c :: lv) = (if c then 1 else 0) + objs lv.
Proof. unfold objs. rewrite filter_cons. by destruct c. Qed.

Lemma objs_insert lv i (b b' : bool) : lv !! i = Some b → objs (<[i := b']> lv) + (if b then 1 else 0) = objs lv + (if b' then 1 else 0).
Proof.
  revert i. induction lv as [|c lv IH]; intros [|i] Hi; [done..| |].
  - injection Hi as ->. cbn [list_insert insert]. rewrite !objs_cons. destruct b, b'; lia.
  - change (<[S i := b']> (c :: lv)) with (c :: <[i := b']> lv). rewrite !objs_cons. specialize (IH i Hi). destruct c; lia.
Qed.

Lemma objs_replicate n : objs (replicate n false) = 0.
Proof. induction n as [|n IH]; [done|]. cbn [replicate]. by rewrite objs_cons. Qed.

Lemma kv_len_insert sl i (o o' : option (hent K V)) : sl !! i = Some o →
  length (kv (<[i := o']> sl)) + (if o then 1 else 0) = length (kv sl) + (if o' then 1 else 0).
Proof.
  intros Hi. pose proof (Permutation_length (kv_insert sl i o o' Hi)) as Hp. rewrite !app_length in Hp.
  destruct o, o'; cbn in Hp; lia.
Qed.

Lemma find_sim fuel sl lv h k i p : covered sl lv → l_find_loop fuel sl lv h k i p = find_loop fuel sl h k i p.
Proof.
  intros Hc. revert i p. induction fuel as [|fuel IH]; intros i p; [done|]. cbn. rewrite lt_at_eq by done.
  destruct (sl !! i) as [[e|]|]; [|done..]. cbn. destruct (e_match e h k); [done|]. case_decide; [done|]. apply IH.
Qed.

Lemma erase_find_sim fuel sl lv h k i p : covered sl lv → l_erase_find fuel sl lv h k i p = erase_find fuel sl h k i p.
Proof.
  intros Hc. revert i p. induction fuel as [|fuel IH]; intros i p; [done|]. cbn. rewrite lt_at_eq by done.
  destruct (sl !! i) as [[e|]|]; [|done..]. cbn. case_decide; [done|]. destruct (e_match e h k); [done|]. apply IH.
Qed.

Lemma insert_sim asg fuel sl lv lost h x i r sl' j b : covered sl lv →
  insert_loop asg fuel sl h x i r = Some (sl', (j, b)) →
  ∃ lv' lost', l_insert_loop asg fuel sl lv lost h x i r = Some (sl', (lv', lost'), (j, b)) ∧ covered sl' lv' ∧
    lost' + objs lv' + length (kv sl) = lost + objs lv + length (kv sl').
Proof.
  revert sl x i r. induction fuel as [|fuel IH]; intros sl x i r Hc; [done|]. cbn [insert_loop l_insert_loop].
  rewrite lt_at_eq by done. destruct (sl !! i) as [[e|]|] eqn:Hi; [| |done]; cbn [mbind option_bind].
  - pose proof (proj2 Hc i e Hi) as Hl. destruct (e_match e h (he_key x)).
    + intros E. injection E as <- <- <-. eexists _, _. split; [done|]. destruct asg; [|done]. split; [by apply covered_insert|].
      pose proof (kv_len_insert sl i (Some e) (Some (e_setval e (he_val x))) Hi). cbn in *. lia.
    + case_decide; [|by apply IH]. intros E. destruct (IH _ _ _ _ (covered_insert _ _ i (Some x) Hc Hl) E) as (lv' & lost' & -> & Hc' & Hn).
      exists lv', lost'. split; [done|]. split; [done|]. pose proof (kv_len_insert sl i (Some e) (Some x) Hi). cbn in *. lia.
  - intros E. injection E as <- <- <-. eexists _, _. split; [done|].
    pose proof (lookup_lt_Some _ _ _ Hi) as Hlt. rewrite <-(proj1 Hc) in Hlt.
    apply lookup_lt_is_Some in Hlt as [c Hcv]. rewrite Hcv. split.
    + split; [rewrite !insert_length; apply Hc|]. intros y e Hy. apply list_lookup_insert_Some in Hy as [(-> & _ & _)|[Hne Hy]].
      * apply list_lookup_insert. by eapply lookup_lt_Some.
      * rewrite list_lookup_insert_ne by done. by eapply (proj2 Hc).
    + pose proof (objs_insert lv i c true Hcv). pose proof (kv_len_insert sl i None (Some x) Hi). destruct c; cbn in *; lia.
Qed.

Lemma insert_raw_sim asg t m k v u j b : lgood t m → ht_insert_raw hsh asg (lt_tab t) k v = Some (u, (j, b)) →
  ∃ t', lt_insert_raw hsh asg t k v = Some (t', (j, b)) ∧ lt_tab t' = u ∧ lgood t' m.
Proof.
  intros [Hc Hn]. unfold ht_insert_raw, lt_insert_raw.
  destruct (insert_loop _ _ _ _ _ _ _) as [[sl' [j' b']]|] eqn:E; [|done]. cbn [mbind option_bind fst snd]. intros Heq. injection Heq as <- <- <-.
  destruct (insert_sim _ _ _ _ (lt_lost t) _ _ _ _ _ _ _ Hc E) as (lv' & lost' & -> & Hc' & Hn'). cbn [mbind option_bind fst snd].
  eexists. split; [done|]. split; [done|]. split; [done|]. cbn [lt_tab lt_obj lt_lost ht_slots]. lia.
Qed.

Lemma insert_all_sim l t m u : lgood t m → insert_all hsh (lt_tab t) l = Some u →
  ∃ t', lt_insert_all hsh t l = Some t' ∧ lt_tab t' = u ∧ lgood t' m.
Proof.
  revert t. induction l as [|[k v] l IH]; intros t Hg; cbn [insert_all lt_insert_all].
  - intros E. injection E as <-. by exists t.
  - destruct (ht_insert_raw hsh false (lt_tab t) k v) as [[u1 [j b]]|] eqn:E; [|done]. cbn [mbind option_bind fst]. intros Hr.
    destruct (insert_raw_sim _ _ _ _ _ _ _ _ Hg E) as (t1 & -> & <- & Hg1). cbn [mbind option_bind fst]. by apply IH.
Qed.

Lemma destroy_sim sl lv : covered sl lv → ∃ lv', lt_destroy sl lv = Some lv' ∧ length lv' = length sl ∧
  objs lv' + length (kv sl) = objs lv.
Proof.
  revert lv. induction sl as [|o sl IH]; intros [|b lv] [Hl Hc]; try done.
  - by exists [].
  - destruct (IH lv) as (lv' & E & Hlen & Hn). { split; [by injection Hl|]. intros i e. apply (Hc (S i)). }
    cbn [lt_destroy]. rewrite E. cbn [mbind option_bind]. change (o :: sl) with ([o] ++ sl). rewrite kv_app, app_length.
    destruct o as [e|].
    + pose proof (Hc 0 e eq_refl) as Hb. injection Hb as ->. eexists. split; [done|]. split; [by cbn; rewrite Hlen|].
      rewrite !objs_cons. cbn in *. lia.
    + eexists. split; [done|]. split; [by cbn; rewrite Hlen|]. rewrite !objs_cons. cbn in *. destruct b; lia.
Qed.

Lemma destruct_sim t m : lgood t m → lt_destruct t = Some m.
Proof.
  intros [Hc Hn]. unfold lt_destruct. destruct (destroy_sim _ _ Hc) as (lv' & -> & _ & Ho). cbn. f_equal. lia.
Qed.

Lemma kv_replicate n : kv (replicate n (None : option (hent K V))) = [].
Proof. induction n as [|n IH]; [done|]. exact IH. Qed.

Lemma make_good n : lgood (lt_make n) 0.
Proof.
  split.
  - split; [cbn; by rewrite !replicate_length|]. intros i e Hi. cbn in Hi. by apply lookup_replicate in Hi as [? _].
  - cbn [lt_make ht_make lt_tab lt_obj lt_lost ht_slots]. by rewrite objs_replicate, kv_replicate.
Qed.

Lemma reserve_sim t m n u : lgood t m → ht_reserve hsh (lt_tab t) n = Some u →
  ∃ t', lt_reserve hsh t n = Some t' ∧ lt_tab t' = u ∧ lgood t' m.
Proof.
  intros Hg. unfold ht_reserve, lt_reserve. case_decide. { intros E. injection E as <-. by exists t. }
  intros E. destruct (insert_all_sim _ (lt_make n) _ _ (make_good n) E) as (t1 & -> & <- & [Hc1 Hn1]). cbn [mbind option_bind].
  rewrite (destruct_sim _ _ Hg). cbn [mbind option_bind]. eexists. split; [done|]. split; [done|]. split; [done|]. cbn [lt_tab lt_obj lt_lost ht_slots]. lia.
Qed.

Lemma grow_sim t m u : lgood t m → ht_grow hsh (lt_tab t) = Some u →
  ∃ t', lt_grow hsh t = Some t' ∧ lt_tab t' = u ∧ lgood t' m.
Proof.
  intros Hg. unfold ht_grow, lt_grow. case_decide; [by apply reserve_sim|]. intros E. injection E as <-. by exists t.
Qed.

Lemma insert_op_sim (asg : bool) t m k v u x : lgood t m →
  (t1 ← ht_grow hsh (lt_tab t); ht_insert_raw hsh asg t1 k v) = Some (u, x) →
  ∃ t', lt_insert hsh asg t k v = Some (t', x) ∧ lt_tab t' = u ∧ lgood t' m.
Proof.
  intros Hg. unfold lt_insert. destruct (ht_grow hsh (lt_tab t)) as [u1|] eqn:E; [|done]. cbn [mbind option_bind].
  destruct (grow_sim _ _ _ Hg E) as (t1 & -> & <- & Hg1). destruct x as [j b]. cbn [mbind option_bind]. by apply insert_raw_sim.
Qed.

Lemma find_op_sim t m k : lgood t m → lt_find hsh t k = ht_find hsh (lt_tab t) k.
Proof. intros [Hc _]. unfold lt_find, ht_find. case_decide; [done|]. by apply find_sim. Qed.

Lemma index_sim dflt t m k u i : lgood t m → ht_index hsh dflt (lt_tab t) k = Some (u, i) →
  ∃ t', lt_index hsh dflt t k = Some (t', i) ∧ lt_tab t' = u ∧ lgood t' m.
Proof.
  intros Hg. unfold ht_index, lt_index. rewrite (find_op_sim t m k Hg). destruct (ht_find hsh (lt_tab t) k) as [[j|]|]; [| |done]; cbn [mbind option_bind].
  - intros E. injection E as <- <-. by exists t.
  - unfold ht_emplace. destruct (ht_grow hsh (lt_tab t) ≫= _) as [[u1 x]|] eqn:E; [|done]. cbn [mbind option_bind fst snd]. intros Heq. injection Heq as <- <-.
    destruct (insert_op_sim false t m k dflt u1 x Hg E) as (t' & -> & ? & ?). cbn. by exists t'.
Qed.

Lemma deref_sim t m i : lgood t m → lt_deref t i = ht_deref (lt_tab t) i.
Proof. intros [Hc _]. unfold lt_deref, ht_deref. by rewrite lt_at_eq. Qed.

Lemma store_sim t m i v u : lgood t m → ht_store (lt_tab t) i v = Some u →
  ∃ t', lt_store t i v = Some t' ∧ lt_tab t' = u ∧ lgood t' m.
Proof.
  intros Hg E. unfold lt_store. rewrite E. pose proof Hg as [Hc Hn]. rewrite (deref_sim t m i Hg).
  unfold ht_store in E. unfold ht_deref. destruct (ht_slots (lt_tab t) !! i) as [[e|]|] eqn:Hi; [|done..]. cbn in *. injection E as <-.
  eexists. split; [done|]. split; [done|]. split; cbn [lt_tab lt_obj lt_lost ht_slots].
  - apply covered_insert; [done|]. by eapply (proj2 Hc).
  - pose proof (kv_len_insert _ i (Some e) (Some (e_setval e v)) Hi). cbn in *. lia.
Qed.

Lemma shift_sim fuel sl lv i sl' : covered sl lv → lv !! i = Some true → shift_loop fuel sl i = Some sl' →
  l_shift_loop fuel sl lv i = Some sl' ∧ covered sl' lv ∧ length (kv sl') = length (kv (<[i := None]> sl)).
Proof.
  revert sl i. induction fuel as [|fuel IH]; intros sl i Hc Hi; [done|]. cbn [shift_loop l_shift_loop].
  pose proof (covered_none sl lv i Hc) as Hc1. rewrite (lt_at_eq _ _ _ Hc1).
  destruct (<[i:=None]> sl !! ht_next i (length sl)) as [[e|]|] eqn:Hj; [| |done]; cbn [mbind option_bind].
  - case_decide. { intros E. injection E as <-. done. }
    rewrite Hi. set (j := ht_next i (length sl)) in *. intros E.
    assert (i < length sl) as Hlt by (rewrite <-(proj1 Hc); by eapply lookup_lt_Some).
    assert (i ≠ j) as Hij. { intros <-. by rewrite list_lookup_insert in Hj. }
    destruct (IH _ _ (covered_insert _ _ i (Some (e_dec e)) Hc1 Hi) (proj2 Hc1 j e Hj) E) as (-> & Hc' & Hn).
    split; [done|]. split; [done|]. rewrite Hn.
    assert (<[i:=None]> sl !! i = Some None) as Hin by (by apply list_lookup_insert).
    pose proof (kv_len_insert (<[i := None]> sl) i None (Some (e_dec e)) Hin) as H1.
    assert (<[i:=Some (e_dec e)]> (<[i:=None]> sl) !! j = Some (Some e)) as Hj2 by (by rewrite list_lookup_insert_ne).
    pose proof (kv_len_insert _ j (Some e) None Hj2) as H2. cbn in *. lia.
  - intros E. injection E as <-. done.
Qed.

Lemma erase_find_occupied fuel sl h k i p j : erase_find fuel sl h k i p = Some (Some j) → ∃ e, sl !! j = Some (Some e) ∧ he_key e = k.
Proof.
  revert i p. induction fuel as [|fuel IH]; intros i p; [done|]. cbn. destruct (sl !! i) as [[e|]|] eqn:Hi; [|done..]. cbn.
  case_decide; [done|]. unfold e_match. case_bool_decide; [|apply IH]. case_bool_decide; [|apply IH]. cbn. intros E. injection E as <-. by exists e.
Qed.

Lemma erase_sim t m k u : ht_wf hsh (lt_tab t) → lgood t m → ht_erase hsh (lt_tab t) k = Some u →
  ∃ t', lt_erase hsh t k = Some t' ∧ lt_tab t' = u ∧ lgood t' (m + (if bool_decide (is_Some (ht_abs (lt_tab t) !! k)) then 1 else 0)).
Proof.
  intros Hwf [Hc Hn]. unfold ht_erase, lt_erase. rewrite (erase_find_sim _ _ _ _ _ _ _ Hc).
  destruct (erase_find _ _ _ _ _ _) as [[i|]|] eqn:Hf; [| |done]; cbn [mbind option_bind].
  - destruct (erase_find_occupied _ _ _ _ _ _ _ Hf) as (e & Hi & Hk).
    rewrite bool_decide_eq_true_2.
    2: { exists (he_val e). apply (abs_lookup hsh); [done|]. by exists i, e. }
    destruct (shift_loop _ _ i) as [sl'|] eqn:Hs; [|done]. cbn [mbind option_bind].
    destruct (shift_sim _ _ _ _ _ Hc (proj2 Hc i e Hi) Hs) as (-> & Hc' & Hk'). cbn [mbind option_bind].
    pose proof (kv_len_insert _ i (Some e) None Hi) as Hk2.
    set (t1 := LTab (HTab sl' (pred (ht_size (lt_tab t)))) (lt_obj t) (lt_lost t)).
    assert (lgood t1 (m + 1)) as Hg1. { split; [done|]. cbn [t1 lt_tab lt_obj lt_lost ht_slots]. cbn in Hk2. lia. }
    unfold ht_shrink, lt_shrink. change (HTab sl' (pred (ht_size (lt_tab t)))) with (lt_tab t1). case_decide.
    + by apply reserve_sim.
    + intros E. injection E as <-. by exists t1.
  - intros E. injection E as <-. exists t. split; [done|]. split; [done|]. rewrite bool_decide_eq_false_2; [by rewrite Nat.add_0_r|].
    intros [v Hv]. apply (abs_lookup hsh) in Hv as (j & e & Hj & <- & _); [|done]. destruct Hwf as [Hwf _].
    destruct (wf_pos _ _ Hwf _ _ Hj) as (_ & _ & Hlt). pose proof (wf_pow _ _ Hwf) as Hp.
    rewrite <-pos_0 in Hf by done. rewrite (erase_find_present hsh _ j e) in Hf by (done || lia). done.
Qed.

Lemma clear_sim t m : lgood t m → ∃ t', lt_clear t = Some t' ∧ lt_tab t' = ht_clear (lt_tab t) ∧ lgood t' m.
Proof.
  intros [Hc Hn]. unfold lt_clear. destruct (destroy_sim _ _ Hc) as (lv' & -> & Hl & Ho). cbn. eexists. split; [done|]. split; [done|].
  split; cbn [ht_clear lt_tab lt_obj lt_lost ht_slots].
  - split; [by rewrite replicate_length|]. intros i e Hi. by apply lookup_replicate in Hi as [? _].
  - rewrite kv_replicate. cbn. lia.
Qed.

Lemma objs_occupied sl : objs ((λ o, bool_decide (is_Some o)) <$> sl) = length (kv sl).
Proof.
  induction sl as [|o sl IH]; [done|]. change (o :: sl) with ([o] ++ sl) at 2. rewrite kv_app, app_length, <-IH.
  rewrite fmap_cons, objs_cons. by destruct o.
Qed.

Lemma copy_sim t m : lgood t m → ∃ t', lt_copy t = Some t' ∧ lt_tab t' = lt_tab t ∧ lgood t' 0.
Proof.
  intros [Hc Hn]. unfold lt_copy. destruct (destroy_sim _ _ Hc) as (lv' & -> & _). cbn. eexists. split; [done|]. split; [done|]. split; cbn [lt_tab lt_obj lt_lost ht_slots].
  - split; [by rewrite fmap_length|]. intros i e Hi. by rewrite list_lookup_fmap, Hi.
  - by rewrite objs_occupied.
Qed.
End life.
