(** Taking a trapped row out of its archetype is undefined. *)
From Verif Require Import Base Bits Layout HandlePool SparseMap HashTable Bitset ComponentSet Chunk Archetype Registry View RegSpec.

(** Computations that keep a preorder on states. *)
Definition keeping {S X} (R : S → S → Prop) (m : M S X) : Prop := ∀ s, R s (m s).1.
Lemma keeping_bind {S X Y} (R : S → S → Prop) `{!Transitive R} (m : M S X) (f : X → M S Y) :
  keeping R m → (∀ x, keeping R (f x)) → keeping R (bind m f).
Proof.
  intros Hm Hf s. unfold bind. specialize (Hm s). destruct (m s) as [s1 [x|e|]]; cbn [fst] in *; [|done|done]. etrans; [done|apply Hf].
Qed.
Lemma keeping_forM {S X} (R : S → S → Prop) `{!PreOrder R} (l : list X) (f : X → M S unit) :
  (∀ x, keeping R (f x)) → keeping R (forM l f).
Proof. intros Hf. induction l as [|x l IH]; cbn [forM]; [by intros s|]. apply keeping_bind; [apply _|done|done]. Qed.

Definition same_size (k k' : chunk) : Prop := ck_size k' = ck_size k.
Definition same_size1 (k k' : chunk * chunk) : Prop := ck_size k'.1 = ck_size k.1.
Global Instance same_size_pre : PreOrder same_size.
Proof. split; [done|]. intros ???. unfold same_size. congruence. Qed.
Global Instance same_size1_pre : PreOrder same_size1.
Proof. split; [done|]. intros ???. unfold same_size1. congruence. Qed.

Lemma keeping_read off : keeping same_size (read_obj off).
Proof. intros k. unfold read_obj. by destruct (_ !! _). Qed.
Lemma keeping_assign off c : keeping same_size (assign_obj off c).
Proof. intros k. unfold assign_obj. by destruct (_ !! _). Qed.
Lemma keeping_take off : keeping same_size (take_obj off).
Proof. apply keeping_bind; [apply _|apply keeping_read|]. intros c. apply keeping_bind; [apply _|apply keeping_assign|done]. Qed.
Lemma keeping_fst {X} (m : M chunk X) : keeping same_size m → keeping same_size1 (on_fst m).
Proof. intros Hm s. unfold on_fst. specialize (Hm s.1). by destruct (m s.1). Qed.
Lemma keeping_snd {X} (m : M chunk X) : keeping same_size1 (on_snd m).
Proof. intros s. unfold on_snd. by destruct (m s.2). Qed.

Lemma ck_move_size sb db i : keeping same_size1 (ck_move sb db i).
Proof.
  apply keeping_bind; [apply _|by apply keeping_fst|]. intros s. apply keeping_bind; [apply _|apply keeping_snd|]. intros d.
  destruct (decide _); [done|]. destruct (ck_full d); [done|]. apply keeping_bind; [apply _| |].
  - apply keeping_forM; [apply _|]. intros e. destruct (sm_contains _ _) as [[]|]; [|done|done].
    apply keeping_bind; [apply _| |].
    + unfold blk_at. by destruct (sm_at _ _) as [[]|].
    + intros b. apply keeping_bind; [apply _|apply keeping_fst, keeping_take|]. intros x. apply keeping_snd.
  - intros _. apply keeping_bind; [apply _|apply keeping_snd|done].
Qed.

Section trap.
Context (U : universe).

Definition trapped_in (a : archetype) (c i : nat) : Prop := ∃ k l,
  ar_chunks a !! c = Some k ∧ S i < ck_size k ∧ last (ar_chunks a) = Some l ∧ ck_size l = 0.

Lemma with_same a c k : ar_chunks a !! c = Some k → ar_with_chunks a (<[c := k]> (ar_chunks a)) = a.
Proof. intros Hk. unfold ar_with_chunks. rewrite list_insert_id by done. by destruct a. Qed.

Lemma swap_erase_trapped a c i : trapped_in a c i → (ar_swap_erase U c i a).2 = UB.
Proof.
  intros (k & l & Hk & Hi & Hl & H0). rewrite last_lookup in Hl. replace (pred (length (ar_chunks a))) with (length (ar_chunks a) - 1) in Hl by lia.
  unfold ar_swap_erase, bind at 1, get. unfold bind at 1.
  assert ((ck_swap_erase U c (length (ar_chunks a) - 1) i a).2 = UB) as E.
  { unfold ck_swap_erase, bind at 1, get. unfold bind at 1, on_chunk at 1. rewrite Hk. rewrite (with_same _ _ _ Hk).
    rewrite decide_False by lia. rewrite decide_False by lia. unfold bind at 1, on_chunk at 1. rewrite Hl. unfold ck_empty. by rewrite H0. }
  destruct (ck_swap_erase U c (length (ar_chunks a) - 1) i a) as [a' o]. cbn [snd] in E. by subst o.
Qed.

Lemma ar_move_trapped a d c i q : trapped_in a c i → (ar_move U c i (a, d)).2 ≠ Ok q.
Proof.
  intros Ht E. unfold ar_move, bind at 1, on_snd at 1 in E. cbn [fst snd] in E. destruct (ar_ensure_free d) as [d1 [f|e|]]; [|done|done].
  unfold bind at 1, on_fst at 1, get at 1 in E. cbn [fst snd] in E. unfold bind at 1, on_snd at 1, get at 1 in E. cbn [fst snd] in E.
  unfold bind at 1 in E. destruct Ht as (k & l & Hk & Hi & Hl & H0). cbn [fst snd] in E. rewrite Hk in E.
  destruct (ar_chunks d1 !! f) as [k2|]; [|done]. pose proof (ck_move_size (ar_blocks a) (ar_blocks d1) i (k, k2)) as Hs.
  destruct (ck_move (ar_blocks a) (ar_blocks d1) i (k, k2)) as [[k' k2'] [row|e|]]; [|done|done]. unfold same_size1 in Hs. cbn [fst] in Hs.
  unfold bind at 1, on_fst at 1 in E. cbn [fst snd] in E.
  assert ((ar_swap_erase U c i (ar_with_chunks a (<[c := k']> (ar_chunks a)))).2 = UB) as Eu.
  { apply swap_erase_trapped. pose proof (lookup_lt_Some _ _ _ Hk). unfold trapped_in, ar_with_chunks. cbn [ar_chunks].
    rewrite last_lookup in Hl. exists k', (if decide (c = pred (length (ar_chunks a))) then k' else l). split; [by rewrite list_lookup_insert|].
    split; [lia|]. rewrite last_lookup, insert_length. case_decide as Hd.
    - subst c. rewrite Hk in Hl. injection Hl as ->. lia.
    - rewrite list_lookup_insert_ne by done. done. }
  destruct (ar_swap_erase U c i _) as [a' o]. cbn [snd] in Eu. by subst o.
Qed.

(** Looking for an archetype leaves the existing ones alone. *)
Lemma ensure_key_heap key mk r r' b (a : nat) x : rg_ensure_key U key mk r = (r', Ok b) → rg_heap r !! a = Some x → rg_heap r' !! a = Some x.
Proof.
  unfold rg_ensure_key. intros E Ha. destruct (ht_index _ _ _ _) as [[t i]|]; [|done]. destruct (ht_deref t i) as [[j|]|]; [| |done].
  - destruct (rg_heap r !! j); [|done]. destruct (bs_eqb _ _); [|done]. by injection E as <- _.
  - destruct (ar_new _ _) as [ar|e|]; [|done|done]. destruct (ht_store _ _ _) as [t'|]; [|done]. destruct (bs_eqb _ _); [|done].
    injection E as <- _. cbn. by apply lookup_app_l_Some.
Qed.
Lemma with_search_heap f mk r r' b (a : nat) x : rg_with_search U f mk r = (r', Ok b) → rg_heap r !! a = Some x → rg_heap r' !! a = Some x.
Proof. unfold rg_with_search, bind, get, put. intros E Ha. by eapply ensure_key_heap; [exact E|]. Qed.

Lemma location_keeps h r : (rg_location h r).1 = r.
Proof. unfold rg_location. destruct (rg_alive r h); [|done]. by destruct (sm_at _ _) as [[]|]. Qed.
Lemma location_run h r l : (rg_location h r).2 = Ok l → rg_location h r = (r, Ok l).
Proof. intros E. pose proof (location_keeps h r). destruct (rg_location h r). cbn in *. by subst. Qed.
Lemma arch_run r (a : nat) ar : rg_heap r !! a = Some ar → rg_arch (Some a) r = (r, Ok ar).
Proof. intros Ha. unfold rg_arch, on_arch. rewrite Ha. cbn. rewrite list_insert_id by done. by destruct r. Qed.

Lemma on_arch2_trapped r (a b c i : nat) ar q : rg_heap r !! a = Some ar → trapped_in ar c i → (on_arch2 (Some a) (Some b) (ar_move U c i) r).2 ≠ Ok q.
Proof.
  intros Ha Ht E. unfold on_arch2 in E. destruct (decide (a = b)); [done|]. rewrite Ha in E. destruct (rg_heap r !! b) as [d|]; [|done].
  pose proof (ar_move_trapped ar d c i q Ht) as Hn. destruct (ar_move U c i (ar, d)) as [[? ?] ?]. done.
Qed.

Lemma destroy_trapped r h : trapped r h → (rg_destroy U h r).2 = UB.
Proof.
  intros (a & c & i & ar & k & l & El & Ha & Hk & Hi & Hl & H0). unfold rg_destroy. unfold bind at 1. rewrite (location_run _ _ _ El).
  unfold bind at 1, on_arch. cbn [lc_arch lc_chunk lc_row]. rewrite Ha. assert ((ar_swap_erase U c i ar).2 = UB) as E by (apply swap_erase_trapped; by exists k, l).
  destruct (ar_swap_erase U c i ar) as [? o]. cbn in E. by subst o.
Qed.

(** A component that is not there, by the location of the entity. *)
Definition lacks (r : registry) (h : handle) (c : cid) : Prop := (rg_has h [c] r).2 = Ok false.
Lemma lacks_at r h c (a j i : nat) ar : (rg_location h r).2 = Ok (Loc (Some a) j i) → rg_heap r !! a = Some ar →
  (rg_has h [c] r).2 = Ok (ar_contains ar c).
Proof.
  intros El Ha. unfold rg_has, bind at 1. rewrite (location_run _ _ _ El). cbn [lc_arch]. unfold bind at 1. rewrite (arch_run _ _ _ Ha).
  cbn. by rewrite andb_true_r.
Qed.

Lemma set_impl_trapped r h c x : trapped r h → (rg_has h [c] r).2 = Ok false → (rg_set_impl U h c r).2 ≠ Ok x.
Proof.
  intros (a & j & i & ar & k & l & El & Ha & Hk & Hi & Hl & H0) Hc E. rewrite (lacks_at _ _ _ _ _ _ _ El Ha) in Hc. injection Hc as Hc.
  unfold rg_set_impl, bind at 1 in E. rewrite (location_run _ _ _ El) in E. cbn [lc_arch lc_chunk lc_row] in E. unfold bind at 1 in E. rewrite (arch_run _ _ _ Ha), Hc in E.
  unfold bind at 1 in E. destruct (rg_ensure_added U ar c r) as [r1 [b|e|]] eqn:E1; [|done|done].
  assert (rg_heap r1 !! a = Some ar) as Ha1 by (by eapply with_search_heap).
  unfold bind at 1 in E. pose proof (λ q, on_arch2_trapped r1 a b j i ar q Ha1 ltac:(by exists k, l)) as Hn.
  destruct (on_arch2 (Some a) (Some b) (ar_move U j i) r1) as [r2 [q|e|]]; [by apply (Hn q)|done|done].
Qed.

Lemma set_trapped r h c v x : trapped r h → (rg_has h [c] r).2 = Ok false → (rg_set U h c v r).2 ≠ Ok x.
Proof.
  intros Ht Hc E. unfold rg_set, bind at 1 in E. pose proof (λ y, set_impl_trapped r h c y Ht Hc) as Hn.
  destruct (rg_set_impl U h c r) as [r1 [y|e|]]; [by apply (Hn y)|done|done].
Qed.
Lemma get_or_insert_trapped r h c v x : trapped r h → (rg_has h [c] r).2 = Ok false → (rg_get_or_insert U h c v r).2 ≠ Ok x.
Proof.
  intros Ht Hc E. unfold rg_get_or_insert, bind at 1 in E. pose proof (λ y, set_impl_trapped r h c y Ht Hc) as Hn.
  destruct (rg_set_impl U h c r) as [r1 [y|e|]]; [by apply (Hn y)|done|done].
Qed.
Lemma remove_trapped r h c x : trapped r h → (rg_has h [c] r).2 = Ok true → (rg_remove U h c r).2 ≠ Ok x.
Proof.
  intros (a & j & i & ar & k & l & El & Ha & Hk & Hi & Hl & H0) Hc E. rewrite (lacks_at _ _ _ _ _ _ _ El Ha) in Hc. injection Hc as Hc.
  unfold rg_remove, bind at 1 in E. rewrite (location_run _ _ _ El) in E. cbn [lc_arch lc_chunk lc_row] in E. unfold bind at 1 in E. rewrite (arch_run _ _ _ Ha), Hc in E.
  unfold bind at 1 in E. destruct (rg_ensure_removed U ar c r) as [r1 [b|e|]] eqn:E1; [|done|done].
  assert (rg_heap r1 !! a = Some ar) as Ha1 by (by eapply with_search_heap).
  unfold bind at 1 in E. pose proof (λ q, on_arch2_trapped r1 a b j i ar q Ha1 ltac:(by exists k, l)) as Hn.
  destruct (on_arch2 (Some a) (Some b) (ar_move U j i) r1) as [r2 [q|e|]]; [by apply (Hn q)|done|done].
Qed.
Lemma move_into_trapped r r2 h ph x : trapped r h → (rg_move_into U h ph (r, r2)).2 ≠ Ok x.
Proof.
  intros (a & j & i & ar & k & l & El & Ha & Hk & Hi & Hl & H0) E. unfold rg_move_into, bind at 1, on_fst at 1 in E. cbn [fst snd] in E.
  rewrite (location_run _ _ _ El) in E. cbn [lc_arch lc_chunk lc_row] in E. unfold bind at 1, on_fst at 1 in E. cbn [fst snd] in E. rewrite (arch_run _ _ _ Ha) in E.
  unfold bind at 1, on_snd at 1 in E. cbn [fst snd] in E. destruct (rg_ensure U (ar_comps ar) r2) as [r3 [b|e|]]; [|done|done].
  unfold bind at 1 in E. cbn [fst snd] in E. rewrite Ha in E. destruct (rg_heap r3 !! b) as [d|]; [|done].
  pose proof (λ q, ar_move_trapped ar d j i q ltac:(by exists k, l)) as Hn. destruct (ar_move U j i (ar, d)) as [[? ?] [q|e|]]; [by apply (Hn q)|done|done].
Qed.

Lemma archs_null rq f : ∀ l log r x, (∃ key, (key, None) ∈ l) → (vw_archs U rq f l log r).2 ≠ Ok x.
Proof.
  induction l as [|e l IH]; intros log r x [key Hk] E; [by apply elem_of_nil in Hk|]. cbn [vw_archs] in E.
  unfold bind at 1 in E. apply elem_of_cons in Hk as [<-|Hk]; [done|]. destruct (rg_arch e.2 r) as [r1 [ar|e1|]]; [|done|done].
  unfold bind at 1 in E. match type of E with (let (_, _) := ?m in _).2 = _ => destruct m as [r2 [log'|e1|]] end; [|done|done]. by eapply IH; [exists key|].
Qed.
Lemma each_null r rq f x : has_null r → (rg_each U rq f r).2 ≠ Ok x.
Proof. unfold rg_each, bind, get. apply archs_null. Qed.
End trap.
