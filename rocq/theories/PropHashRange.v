(** C67: the range constructor of hash tables.  C68: their iterators. *)
From Verif Require Import Base Bits HashTable HashTableProofs HashTableMap HashRange PropHash.
Ltac Zify.zify_post_hook ::= Z.div_mod_to_equations.

Section sim.
Context {K V : Type} `{Countable K}.
Variable hsh : K → N.

Definition e_info (e : hent K V) : N * nat := (he_hash e, he_psl e).
(** The two arrays hold the buckets [sl]; unoccupied buckets may hold anything. *)
Definition arrays (sl : list (option (hent K V))) (info : list (option (N * nat))) (vals : list (option (K * V))) : Prop :=
  info = map (option_map e_info) sl ∧ length vals = length sl ∧
  ∀ i e, sl !! i = Some (Some e) → vals !! i = Some (Some (he_key e, he_val e)).
Definition rsim (t : htab K V) (r : rtab K V) : Prop :=
  arrays (ht_slots t) (rt_info r) (rt_vals r) ∧ ht_size t = rt_size r.

Lemma map_insert {A B} (f : A → B) (l : list A) i x : map f (<[i := x]> l) = <[i := f x]> (map f l).
Proof. revert i. induction l as [|y l IH]; intros [|i]; cbn; try done. by rewrite IH. Qed.

Lemma map_lookup {A B} (f : A → B) (l : list A) i : map f l !! i = option_map f (l !! i).
Proof. revert i. induction l as [|y l IH]; intros [|i]; cbn; done. Qed.

Lemma arrays_insert sl info vals i e : arrays sl info vals →
  arrays (<[i := Some e]> sl) (<[i := Some (e_info e)]> info) (<[i := Some (he_key e, he_val e)]> vals).
Proof.
  intros (-> & Hl & Hv). split; [by rewrite map_insert|]. split; [by rewrite !insert_length|].
  intros j f Hj. destruct (decide (i = j)) as [<-|].
  - pose proof (lookup_lt_Some _ _ _ Hj) as Hlt. rewrite insert_length in Hlt. rewrite list_lookup_insert in Hj by done. injection Hj as <-.
    apply list_lookup_insert. lia.
  - rewrite list_lookup_insert_ne in Hj by done. rewrite list_lookup_insert_ne by done. by apply Hv.
Qed.

Lemma insert_loop_sim asg fuel sl info vals h (t : hent K V) i r sl' j b :
  insert_loop asg fuel sl h t i r = Some (sl', (j, b)) → arrays sl info vals →
  ∃ info' vals', r_insert_loop asg fuel info vals h (he_hash t) (he_psl t) (he_key t, he_val t) i = Some (info', vals', b) ∧
    arrays sl' info' vals'.
Proof.
  revert sl info vals t i r. induction fuel as [|fuel IH]; intros sl info vals t i r Hins Ha; [done|].
  cbn [insert_loop r_insert_loop] in *. destruct (sl !! i) as [o|] eqn:Hi; [|done]. cbn [mbind option_bind] in Hins.
  pose proof Ha as (Hinfo & Hl & Hv). assert (info !! i = Some (option_map e_info o)) as Hii by (by rewrite Hinfo, map_lookup, Hi).
  rewrite Hii. cbn [mbind option_bind].
  destruct (vals !! i) as [q|] eqn:Hq.
  2: { apply lookup_ge_None in Hq. apply lookup_lt_Some in Hi. lia. }
  cbn [mbind option_bind]. destruct o as [e|]; cbn [option_map].
  - pose proof (Hv _ _ Hi) as Hqe. rewrite Hq in Hqe. apply (inj Some) in Hqe as ->. cbn [mbind option_bind e_info fst snd].
    unfold e_match in Hins. destruct (bool_decide (he_hash e = h) && bool_decide (he_key e = he_key t)) eqn:Em.
    + apply (inj Some) in Hins. injection Hins as <- <- <-. eexists _, _. split; [done|].
      destruct asg; [|done]. destruct Ha as (_ & _ & _).
      pose proof (arrays_insert sl info vals i (e_setval e (he_val t)) (conj Hinfo (conj Hl Hv))) as Ha'. cbn in Ha'.
      replace (<[i:=Some (e_info (e_setval e (he_val t)))]> info) with info in Ha'; [done|].
      symmetry. apply list_insert_id. rewrite Hinfo, map_lookup, Hi. done.
    + rewrite Hl. case_decide.
      * eapply (IH (<[i := Some t]> sl) _ _ (e_inc e)) in Hins; [done|]. by apply (arrays_insert sl info vals i t).
      * by eapply (IH sl info vals (e_inc t)) in Hins.
  - apply (inj Some) in Hins. injection Hins as <- <- <-. eexists _, _. split; [done|]. by apply (arrays_insert sl info vals i t).
Qed.

Lemma insert_raw_sim asg (t : htab K V) r k v t' x : rsim t r → ht_insert_raw hsh asg t k v = Some (t', x) →
  ∃ r', rt_insert_raw hsh asg r (k, v) = Some r' ∧ rsim t' r'.
Proof.
  intros [Ha Hs] Hi. unfold ht_insert_raw in Hi. unfold rt_insert_raw.
  destruct (insert_loop _ _ _ _ _ _ _) as [[sl' [j b]]|] eqn:E; [|done]. cbn [mbind option_bind fst snd] in Hi.
  apply (inj Some) in Hi. injection Hi as <- <-.
  destruct (insert_loop_sim _ _ _ _ _ _ _ _ _ _ _ _ E Ha) as (info' & vals' & E' & Ha'). cbn [he_hash he_psl he_key he_val] in E'.
  destruct Ha as (_ & Hl & _). cbn [fst]. rewrite Hl, E'. cbn [mbind option_bind fst snd]. eexists. split; [done|]. split; [done|]. cbn.
  by rewrite Hs.
Qed.

Lemma insert_all_sim (t : htab K V) r l t' : rsim t r → insert_all hsh t l = Some t' → ∃ r', rt_insert_all hsh false r l = Some r' ∧ rsim t' r'.
Proof.
  revert t r. induction l as [|[k v] l IH]; intros t r Hr Hi; cbn [insert_all rt_insert_all] in *.
  - injection Hi as <-. by exists r.
  - destruct (ht_insert_raw hsh false t k v) as [[t1 x]|] eqn:E; [|done]. cbn [mbind option_bind fst] in Hi.
    destruct (insert_raw_sim _ _ _ _ _ _ _ Hr E) as (r1 & -> & Hr1). cbn [mbind option_bind]. by eapply IH.
Qed.

(** Fast forward from bucket [p] stops at the next occupied bucket. *)
Lemma ff_sim t r fuel p : rsim t r → p ≤ length (ht_slots t) → length (ht_slots t) < fuel + p →
  ∃ q, r_fast_forward fuel r p p = Some (q, q) ∧ p ≤ q ≤ length (ht_slots t) ∧
    drop p (ht_slots t) = replicate (q - p) None ++ drop q (ht_slots t) ∧
    (q = length (ht_slots t) ∨ ∃ e, ht_slots t !! q = Some (Some e)).
Proof.
  intros Hr. pose proof Hr as [(Hinfo & Hl & Hv) _]. revert p. induction fuel as [|fuel IH]; intros p Hp Hf; [lia|].
  cbn [r_fast_forward]. rewrite Hl. destruct (decide (p = length (ht_slots t))) as [->|Hne].
  - eexists. split; [done|]. split; [lia|]. rewrite Nat.sub_diag. cbn. split; [done|by left].
  - assert (p < length (ht_slots t)) as Hlt by lia. apply lookup_lt_is_Some in Hlt as [o Ho]. rewrite Hinfo, map_lookup, Ho. cbn [option_map mbind option_bind].
    destruct o as [e|]; cbn [option_map].
    + exists p. split; [done|]. split; [lia|]. rewrite Nat.sub_diag. cbn. split; [done|]. right. by exists e.
    + destruct (IH (S p)) as (q & E & Hq & Hd & Hend); [lia|lia|]. exists q. split; [done|]. split; [lia|]. split; [|done].
      rewrite (drop_S _ None p Ho), Hd. replace (q - p) with (S (q - S p)) by lia. done.
Qed.

Lemma kv_nones (n : nat) sl : kv (replicate n None ++ sl) = kv (sl : list (option (hent K V))).
Proof. induction n; done. Qed.

Lemma loop_sim t r fuel q : rsim t r → q ≤ length (ht_slots t) → length (ht_slots t) < fuel + q →
  (q = length (ht_slots t) ∨ ∃ e, ht_slots t !! q = Some (Some e)) →
  r_loop fuel r (q, q) = Some (kv (drop q (ht_slots t))).
Proof.
  intros Hr. pose proof Hr as [(Hinfo & Hl & Hv) _].
  assert (length (rt_info r) = length (ht_slots t)) as Hli by (rewrite Hinfo; apply map_length).
  revert q. induction fuel as [|fuel IH]; intros q Hq Hf Hend; [lia|].
  cbn [r_loop]. unfold r_end. rewrite Hl, Hli. destruct (decide (q = length (ht_slots t))) as [->|Hne].
  - rewrite decide_True by done. by rewrite drop_all.
  - rewrite decide_False by (intros [= ? ?]; done). destruct Hend as [?|[e He]]; [done|].
    unfold r_deref. cbn [fst]. rewrite (Hv _ _ He). cbn [mbind option_bind]. unfold r_next. cbn [fst snd]. rewrite decide_True by lia.
    destruct (ff_sim t r (S (length (rt_vals r))) (S q) Hr) as (q' & -> & Hq' & Hd & Hend'); [lia|lia|]. cbn [mbind option_bind].
    rewrite (IH q') by (done || lia). cbn [mbind option_bind]. f_equal. rewrite (drop_S _ _ q He), Hd. cbn [kv omap list_omap id fmap list_fmap].
    unfold kv. cbn. fold (kv (replicate (q' - S q) None ++ drop q' (ht_slots t))). by rewrite kv_nones.
Qed.

Lemma iter_sim t r : rsim t r → rt_iter r = Some (ht_iter t).
Proof.
  intros Hr. pose proof Hr as [(Hinfo & Hl & Hv) _]. unfold rt_iter, r_begin.
  destruct (ff_sim t r (S (length (rt_vals r))) 0 Hr) as (q & -> & Hq & Hd & Hend); [lia|lia|]. cbn [mbind option_bind].
  rewrite (loop_sim t r _ q Hr) by (done || lia). f_equal. rewrite iter_kv. rewrite drop_0 in Hd. rewrite Hd at 2. by rewrite kv_nones.
Qed.

Lemma make_sim n : rsim (ht_make n) (RTab (replicate n None) (replicate n None) 0).
Proof.
  split; [|done]. cbn. split; [by induction n; cbn; f_equal|]. split; [by rewrite !replicate_length|].
  intros i e Hi. by apply lookup_replicate in Hi as [? _].
Qed.

Lemma grow_sim t r t' : rsim t r → ht_grow hsh t = Some t' → ∃ r', rt_grow hsh r = Some r' ∧ rsim t' r'.
Proof.
  intros Hr Hg. pose proof Hr as [(Hinfo & Hl & Hv) Hs]. unfold ht_grow in Hg. unfold rt_grow. rewrite Hl, <-Hs.
  case_decide; [|injection Hg as <-; by exists r]. unfold ht_reserve in Hg. unfold rt_reserve. rewrite <-Hs.
  case_decide; [injection Hg as <-; by exists r|]. unfold rt_make. rewrite decide_True.
  2: { apply Nat.even_spec. rewrite N.shiftl_mul_pow2. exists (length (ht_slots t)). change (2 ^ 1)%N with 2%N. lia. }
  cbn [mbind option_bind]. rewrite (iter_sim t r Hr). cbn [mbind option_bind].
  destruct (insert_all_sim _ _ _ _ (make_sim _) Hg) as (r' & -> & Hr'). cbn. by exists r'.
Qed.

Lemma ioa_sim t r k v t' x : rsim t r → ht_insert_or_assign hsh t k v = Some (t', x) →
  ∃ r', rt_insert_or_assign hsh r (k, v) = Some r' ∧ rsim t' r'.
Proof.
  intros Hr Hi. unfold ht_insert_or_assign in Hi. unfold rt_insert_or_assign.
  destruct (ht_grow hsh t) as [t1|] eqn:E; [|done]. destruct (grow_sim _ _ _ Hr E) as (r1 & -> & Hr1). cbn [mbind option_bind] in *.
  by eapply insert_raw_sim.
Qed.

Lemma range_go l t r : ht_wf hsh t → rsim t r →
  ∃ t' r', (fix go (t : rtab K V) (l : list (K * V)) : option (rtab K V) :=
     match l with [] => Some t | x :: l => t' ← rt_insert_or_assign hsh t x; go t' l end) r l = Some r' ∧ ht_wf hsh t' ∧ rsim t' r' ∧
    ht_abs t' = foldl (λ m x, <[x.1 := x.2]> m) (ht_abs t) l.
Proof.
  revert t r. induction l as [|[k v] l IH]; intros t r Hwf Hr; [by exists t, r|].
  destruct (insert_or_assign_spec hsh t k v Hwf) as (t1 & i & E & Hwf1 & Habs1 & _).
  destruct (ioa_sim _ _ _ _ _ _ Hr E) as (r1 & -> & Hr1). cbn [mbind option_bind].
  destruct (IH t1 r1 Hwf1 Hr1) as (t' & r' & E' & Hwf' & Hr' & Habs'). exists t', r'. split; [done|]. split; [done|]. split; [done|].
  by rewrite Habs', Habs1.
Qed.

(** A table whose arrays differ in length stays one. *)
Definition odd_tab (r : rtab K V) : Prop := length (rt_info r) ≠ length (rt_vals r).

Lemma ff_diag fuel r p i q : r_fast_forward fuel (r : rtab K V) p p = Some (q, i) → q = i.
Proof.
  revert p. induction fuel as [|fuel IH]; intros p E; [done|]. cbn in E. case_decide; [by simplify_eq|].
  destruct (rt_info r !! p) as [[]|]; cbn in E; try done; [by simplify_eq|]. by eapply IH.
Qed.

Lemma loop_odd fuel r q : odd_tab r → r_loop fuel r (q, q) = None.
Proof.
  intros Ho. revert q. induction fuel as [|fuel IH]; intros q; [done|]. cbn [r_loop]. rewrite decide_False.
  2: { unfold r_end. intros [= E1 E2]. apply Ho. congruence. }
  destruct (r_deref r (q, q)); [|done]. cbn [mbind option_bind]. unfold r_next. case_decide; [|done]. cbn [fst snd].
  destruct (r_fast_forward _ r (S q) (S q)) as [[a b]|] eqn:E; [|done]. apply ff_diag in E as ->. cbn [mbind option_bind]. by rewrite IH.
Qed.

Lemma iter_odd r : odd_tab r → rt_iter r = None.
Proof.
  intros Ho. unfold rt_iter. destruct (r_begin r) as [[a b]|] eqn:E; [|done]. apply ff_diag in E as ->. cbn [mbind option_bind]. by apply loop_odd.
Qed.

Lemma insert_loop_len asg fuel info (vals : list (option (K * V))) h nh psl x i info' vals' b :
  r_insert_loop asg fuel info vals h nh psl x i = Some (info', vals', b) → length info' = length info ∧ length vals' = length vals.
Proof.
  revert info vals nh psl x i. induction fuel as [|fuel IH]; intros info vals nh psl x i E; [done|]. cbn [r_insert_loop] in E.
  destruct (info !! i) as [o|]; [|done]. destruct (vals !! i) as [q|]; [|done]. cbn [mbind option_bind] in E. destruct o as [[h' p']|].
  - destruct q as [y|]; [|done]. cbn [mbind option_bind] in E. destruct (_ && _).
    + simplify_eq. destruct asg; [by rewrite insert_length|done].
    + case_decide; apply IH in E as [-> ->]; [by rewrite !insert_length|done].
  - simplify_eq. by rewrite !insert_length.
Qed.

Lemma ioa_odd r x r' : odd_tab r → rt_insert_or_assign hsh r x = Some r' → odd_tab r'.
Proof.
  intros Ho E. unfold rt_insert_or_assign in E. destruct (rt_grow hsh r) as [r1|] eqn:E1; [|done]. cbn [mbind option_bind] in E.
  assert (r1 = r) as ->.
  { unfold rt_grow in E1. case_decide; [|by simplify_eq]. unfold rt_reserve in E1. case_decide; [by simplify_eq|].
    destruct (rt_make _ _); [|done]. cbn [mbind option_bind] in E1. by rewrite (iter_odd r Ho) in E1. }
  unfold rt_insert_raw in E. destruct (r_insert_loop _ _ _ _ _ _ _ _ _) as [[[info vals] b]|] eqn:E2; [|done]. cbn in E. injection E as <-.
  apply insert_loop_len in E2 as [H1 H2]. unfold odd_tab in *. cbn. by rewrite H1, H2.
Qed.
End sim.

(** C67.  The range constructor with the default bucket count, and hence the initializer-list constructor: any
    hash function and any range give a table holding for every key of the range the last value given to it. *)
Theorem C67_default_count_partial {K V : Type} `{Countable K} (hsh : K → N) (l : list (K * V)) :
  ∃ t, rt_range hsh 16 l = Some t ∧ rt_destructs t = true ∧
    ∃ es, rt_iter t = Some es ∧ es ≡ₚ map_to_list (list_to_map (reverse l) : gmap K V).
Proof.
  destruct (range_go hsh l (ht_init) (RTab (replicate 16 None) (replicate 16 None) 0)) as (t & r & E & Hwf & Hr & Habs).
  { apply (empty_wf hsh 16). by exists 4%N. }
  { apply make_sim. }
  exists r. split; [done|]. pose proof (iter_sim t r Hr) as Hi. unfold rt_destructs. rewrite Hi. split; [done|]. eexists. split; [done|].
  rewrite (iter_perm hsh t Hwf), Habs. change (ht_abs ht_init) with (ht_abs (ht_make (K := K) (V := V) 16)).
  rewrite (proj2 (empty_wf hsh 16 (ex_intro _ 4%N eq_refl))).
  enough (foldl (λ (m : gmap K V) (x : K * V), <[x.1:=x.2]> m) ∅ l = list_to_map (reverse l)) as -> by done.
  clear. induction l as [|[k v] l IH] using rev_ind; [done|]. rewrite foldl_app, reverse_app, IH. done.
Qed.

(** With any other bucket count the table cannot even be destroyed: construction or the destructor is undefined,
    for every hash function and every range, the empty one included. *)
Theorem C67_other_counts_refuted {K V : Type} `{Countable K} (hsh : K → N) (n : nat) (l : list (K * V)) : n ≠ 16 →
  match rt_range hsh n l with Some t => rt_destructs t = false | None => True end.
Proof.
  intros Hn. unfold rt_range, rt_make. case_decide; [|done]. cbn [mbind option_bind].
  assert (odd_tab (RTab (replicate default_bucket_count None) (replicate n (None : option (K * V))) 0)) as Ho.
  { unfold odd_tab. cbn. by rewrite replicate_length. }
  revert Ho. generalize (RTab (replicate default_bucket_count None) (replicate n (None : option (K * V))) 0). induction l as [|x l IH]; intros t Ho.
  - unfold rt_destructs. by rewrite iter_odd.
  - destruct (rt_insert_or_assign hsh t x) as [t'|] eqn:E; [|done]. cbn [mbind option_bind]. apply IH. by eapply ioa_odd.
Qed.

(** C68.  From any state that calls reach (with the two arrays holding the buckets), incrementing begin() until it equals
    end() stays within the arrays, reaches end() and visits every element exactly once. *)
Theorem C68_iterators {K V : Type} `{Countable K} (hsh : K → N) (dflt : V) (os : list (hm_op K V)) (t : htab K V) (as_ : list (hm_out K V)) (r : rtab K V) :
  Forall good_reserve os → hm_run hsh dflt ht_init os = Some (t, as_) → rsim t r →
  ∃ es, rt_iter r = Some es ∧ es ≡ₚ map_to_list (foldl (hmap_after dflt) ∅ os).
Proof.
  intros Hos Hrun Hr. destruct (C40_hash_map_refines hsh dflt os Hos) as (t2 & as2 & E & _ & Hit). rewrite Hrun in E. simplify_eq.
  exists (ht_iter t2). split; [by apply iter_sim|]. done.
Qed.

(** A range of 40 colliding keys, some given twice, which makes the table grow. *)
Definition range40 : list (N * N) := ((λ n, (N.of_nat n, 0%N)) <$> seq 0 40) ++ [(3, 9); (5, 7)]%N.
Example ex_C67 : (λ t, (length (rt_vals t), option_map length (rt_iter t), option_map (filter (λ x, x.2 ≠ 0%N)) (rt_iter t))) <$>
    rt_range (λ k, (k mod 4)%N) 16 range40 = Some (64, Some 40, Some [(5, 7); (3, 9)]%N).
Proof. vm_compute. done. Qed.
(** A range that is constructed without trouble with 32 buckets; then its destructor reads infos out of bounds. *)
Example ex_C67_32 : (λ t, (length (rt_vals t), rt_destructs t)) <$> rt_range (λ k : N, k) 32 [(1, 1); (2, 2)]%N = Some (32, false).
Proof. vm_compute. done. Qed.

(** The hypotheses of C68 with the history of C40's example. *)
Definition arrays_of {K V : Type} (t : htab K V) : rtab K V :=
  RTab (map (option_map (λ e, (he_hash e, he_psl e))) (ht_slots t)) (map (option_map (λ e, (he_key e, he_val e))) (ht_slots t)) (ht_size t).
Lemma arrays_of_sim {K V : Type} (t : htab K V) : rsim t (arrays_of t).
Proof.
  split; [|done]. split; [done|]. split; [apply map_length|]. intros i e Hi. cbn. by rewrite map_lookup, Hi.
Qed.
Example ex_C68 : ∃ t as_, hm_run (λ k, (k mod 4)%N) 5%N ht_init collide_ops = Some (t, as_) ∧ rsim t (arrays_of t).
Proof.
  destruct (C40_hash_map_refines (λ k, (k mod 4)%N) 5%N collide_ops C40_example_hyp) as (t & as_ & E & _). exists t, as_.
  exact (conj E (arrays_of_sim t)).
Qed.
Example ex_C68_run : (λ r, option_map length (rt_iter (arrays_of r.1))) <$> hm_run (λ k, (k mod 4)%N) 5%N ht_init collide_ops = Some (Some 29).
Proof. vm_compute. done. Qed.

Print Assumptions C67_default_count_partial.
Print Assumptions C67_other_counts_refuted.
Print Assumptions C68_iterators.
