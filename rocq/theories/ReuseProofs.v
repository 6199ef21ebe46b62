(** What the calls do to the handle pool, and how many ids they need. *)
From Verif Require Import Base Bits Layout PropLayout HandlePool HandleSpec HandlePoolProofs SparseMap SparseMapProofs
  HashTable HashTableProofs HashTableMap Bitset BitsetProofs ComponentSet ComponentSetProofs
  Chunk ChunkProofs Archetype ArchetypeProofs Registry RegistryStore RegistryProofs View ViewProofs RegSpec RegSpecProofs RegObs RegRun
  Placeholder PlaceholderProofs Reuse.
Ltac Zify.zify_post_hook ::= Z.div_mod_to_equations.

(** * Counting *)
Lemma use_cons (h : handle) (iss dd : list handle) : h ∉ dd → length (filter (λ x, x ∉ dd) (h :: iss)) = S (length (filter (λ x, x ∉ dd) iss)).
Proof. intros H. by rewrite filter_cons_True. Qed.
Lemma use_kill (h : handle) (iss dd : list handle) : NoDup iss → h ∉ dd → length (filter (λ x, x ∉ dd) iss) ≤ S (length (filter (λ x, x ∉ h :: dd) iss)).
Proof.
  intros Hnd Hh. induction Hnd as [|x iss Hx Hnd IH]; [cbn; lia|]. rewrite !filter_cons.
  destruct (decide (x ∉ dd)) as [H1|H1], (decide (x ∉ h :: dd)) as [H2|H2]; cbn [length]; try lia.
  assert (x = h) as -> by (destruct (decide (x = h)); [done|]; destruct H2; by apply not_elem_of_cons). clear IH H1 H2.
  assert (filter (λ x, x ∉ dd) iss = filter (λ x, x ∉ h :: dd) iss) as ->; [|lia].
  clear Hnd. induction iss as [|y iss IH]; [done|]. apply not_elem_of_cons in Hx as [Hy Hx]. rewrite !filter_cons, (IH Hx).
  destruct (decide (y ∉ dd)), (decide (y ∉ h :: dd)); try done; exfalso; set_solver.
Qed.
Lemma use_again (h : handle) (iss dd : list handle) : h ∈ dd → length (filter (λ x, x ∉ h :: dd) iss) = length (filter (λ x, x ∉ dd) iss).
Proof. intros Hh. f_equal. apply list_filter_iff. intros y. set_solver. Qed.

(** The ids that are not available. *)
Definition spent (p : pool) : Z := (Z.of_N (next_id p) - Z.max 0 (cursor p))%Z.

Lemma spent_create n p iss dd : hinv n (Hist p iss dd [] []) → below_wrap (S n) →
  spent (pool_create p).1 = (spent p + 1)%Z ∧
  ((next_id (pool_create p).1 = next_id p) ∨ Z.of_N (next_id (pool_create p).1) = spent (pool_create p).1).
Proof.
  intros [] Hw. cbn in *. specialize (hi_quiet eq_refl eq_refl). change (N.of_nat (S n) < w32)%N in Hw. unfold pool_create, spent. destruct (last (free_ids p)) as [id|] eqn:El.
  - pose proof (last_snoc_inv _ _ El) as Efr. assert (length (free_ids p) = length (pop_back (free_ids p)) + 1) as Hlen by (rewrite Efr at 1; rewrite app_length; cbn; lia).
    destruct (gens p !! N.to_nat id); cbn [fst next_id cursor]; split; [lia|by left|lia|by left].
  - apply last_None in El. rewrite El in *. cbn [fst next_id cursor]. cbn [length] in hi_quiet. rewrite inc32_small by lia. split; [lia|right; lia].
Qed.
Lemma spent_recycle n p iss dd h : hinv n (Hist p iss dd [] []) → pool_alive p h = true →
  spent (pool_recycle p h) = (spent p - 1)%Z.
Proof.
  intros [] Ha. cbn in *. specialize (hi_quiet eq_refl eq_refl). unfold pool_recycle, spent. rewrite Ha. cbn [next_id cursor]. lia.
Qed.
Lemma next_recycle p h : next_id (pool_recycle p h) = next_id p.
Proof. unfold pool_recycle. by destruct (pool_alive p h). Qed.
Lemma recycle_dead p h : pool_alive p h = false → pool_recycle p h = p.
Proof. unfold pool_recycle. by intros ->. Qed.
Lemma spent_reserve n p iss dd pend : hinv n (Hist p iss dd pend []) → below_wrap (S n) →
  spent (pool_reserve p).1 = (spent p + 1)%Z ∧
  ((next_id (pool_reserve p).1 = next_id p) ∨ Z.of_N (next_id (pool_reserve p).1) = spent (pool_reserve p).1).
Proof.
  intros [] Hw. cbn in *. change (N.of_nat (S n) < w32)%N in Hw. unfold pool_reserve, reserve_ticket, reserve_finish, spent.
  case_decide as Hc; cbn [next_id cursor gens free_ids].
  - destruct (free_ids p !! _) as [id|]; [destruct (gens p !! _)|]; cbn [fst next_id cursor]; (split; [lia|by left]).
  - cbn [fst next_id cursor]. rewrite inc32_small by lia. split; [lia|right; lia].
Qed.
Lemma spent_flush p : spent (pool_flush p) = spent p.
Proof. unfold pool_flush, spent. cbn [next_id cursor]. lia. Qed.

(** * Threads *)
Definition pos_tickets (ins : list (nat * Z)) : nat := length (filter (λ tn, (0 < tn.2)%Z) ins).
Lemma pos_le ins : pos_tickets ins ≤ length ins.
Proof. apply filter_length. Qed.

Lemma few_reach K n s : few K n s → hreach n s.
Proof. induction 1; [constructor|by eapply HRS]. Qed.

Lemma few_bound K n s : few K n s → below_wrap n →
  (spent (hs_pool s) <= Z.of_nat (length (filter (λ h, h ∉ hs_dead s) (hs_issued s)) + pos_tickets (hs_inside s)))%Z ∧
  (next_id (hs_pool s) <= N.of_nat K)%N.
Proof.
  induction 1 as [|n s s' Hf IH Hs HK]; intros Hw; [cbn; split; [done|lia]|].
  destruct (IH ltac:(unfold below_wrap in *; lia)) as [I1 I2]. pose proof (hinv_reach _ _ (few_reach _ _ _ Hf) ltac:(unfold below_wrap in *; lia)) as Hi.
  destruct Hs as [p iss dd p' h E|p iss dd h Hh|p iss dd pend ins t k p' Ht E|p iss dd pend ins1 ins2 t k p' h E|p iss dd pend];
    cbn [hs_pool hs_issued hs_dead hs_inside] in *.
  - destruct (spent_create _ _ _ _ Hi Hw) as [E1 E2]. rewrite E in E1, E2. cbn [fst] in E1, E2.
    destruct (hinv_create _ _ _ _ _ _ Hi Hw E) as [Hi' _].
    assert (h ∉ dd) as Hd. { intros Hd. apply (hi_dead _ _ Hi) in Hd as [Hd _]. pose proof (hi_iss_nd _ _ Hi') as Hn. cbn in *. by apply NoDup_cons in Hn as [? _]. }
    rewrite (use_cons h) in * by done. cbn in *. split; [lia|]. destruct E2 as [->|E2]; lia.
  - rewrite next_recycle. destruct (pool_alive p h) eqn:Ea.
    + assert (h ∉ dd) as Hd. { intros Hd. destruct (hi_dead _ _ Hi _ Hd) as (_ & g & Hg & Hl). unfold pool_alive in Ea. cbn in *. rewrite Hg in Ea. apply bool_decide_eq_true in Ea. lia. }
      pose proof (use_kill h iss dd (hi_iss_nd _ _ Hi) Hd). rewrite (spent_recycle _ _ _ _ _ Hi Ea). split; [lia|done].
    + rewrite (recycle_dead p h Ea). rewrite use_again; [done|]. destruct (decide (h ∈ dd)) as [|Hd]; [done|]. exfalso.
      pose proof (hi_live _ _ Hi h Hh Hd (not_elem_of_nil _)) as Hl. unfold pool_alive in Ea. cbn in *. rewrite Hl in Ea. by apply bool_decide_eq_false in Ea.
  - injection E as <- <-. cbn [next_id]. split; [|done]. unfold spent, pos_tickets in *. cbn [next_id cursor]. rewrite filter_cons. cbn [snd].
    case_decide; cbn [length]; lia.
  - pose proof (hi_tick _ _ Hi t k ltac:(cbn; set_solver)) as [Hk1 Hk2]. cbn in Hk1, Hk2.
    pose proof (hinv_leave _ _ _ _ _ _ _ _ _ _ _ Hi Hw E) as Hi'.
    assert (h ∉ dd) as Hd. { intros Hd. apply (hi_dead _ _ Hi) in Hd as [Hd _]. pose proof (hi_iss_nd _ _ Hi') as Hn. cbn in *. by apply NoDup_cons in Hn as [? _]. }
    rewrite (use_cons h) in * by done. unfold pos_tickets in *. rewrite filter_app, app_length, filter_cons in I1. rewrite filter_app, app_length. cbn [snd] in I1.
    pose proof (pos_le ins1). pose proof (pos_le ins2). unfold pos_tickets in *. rewrite app_length in HK.
    unfold reserve_finish in E. destruct (decide (0 < k)%Z) as [Hc|Hc].
    + destruct (free_ids p !! _) as [id|]; [|done]. destruct (gens p !! _); [|done]. injection E as <- <-. cbn [length] in I1. split; [lia|done].
    + injection E as <- <-. pose proof (hi_next_le _ _ Hi) as Hx. cbn in Hx. change (N.of_nat (S n) < w32)%N in Hw.
      unfold spent in *. cbn [next_id cursor] in *. rewrite inc32_small in * by lia. split; lia.
  - rewrite spent_flush. split; [done|]. by unfold pool_flush.
Qed.

(** * The effect of a call on the pool *)
Section eff.
Context {S : Type} (pi : S → pool).
Definition kp {X} (m : M S X) : Prop := ∀ s, pi (m s).1 = pi s.
(** The pool is changed by recycle of [h], or not; it is if the call succeeds. *)
Definition en (h : handle) {X} (m : M S X) : Prop := ∀ s,
  (pi (m s).1 = pi s ∨ pi (m s).1 = pool_recycle (pi s) h) ∧ (∀ x, (m s).2 = Ok x → pi (m s).1 = pool_recycle (pi s) h).
Lemma kp_ret {X} (x : X) : kp (ret x). Proof. done. Qed.
Lemma kp_bind {X Y} (m : M S X) (k : X → M S Y) : kp m → (∀ x, kp (k x)) → kp (bind m k).
Proof. intros Hm Hk s. specialize (Hm s). unfold bind. destruct (m s) as [s1 [x|e|]]; cbn [fst] in *; [|done|done]. by rewrite Hk. Qed.
Lemma kp_map {X Y} (f : X → Y) (m : M S X) : kp m → kp (mapM f m).
Proof. intros Hm s. specialize (Hm s). unfold mapM. by destruct (m s). Qed.
Lemma en_bind {X Y} h (m : M S X) (k : X → M S Y) : kp m → (∀ x, en h (k x)) → en h (bind m k).
Proof.
  intros Hm Hk s. specialize (Hm s). unfold bind. destruct (m s) as [s1 [x|e|]]; cbn [fst snd] in *.
  - specialize (Hk x s1). by rewrite Hm in Hk.
  - split; [by left|done].
  - split; [by left|done].
Qed.
Lemma en_last {X Y} h (m : M S X) (k : X → M S Y) : (∀ s, pi (m s).1 = pool_recycle (pi s) h) → (∀ x, kp (k x)) → en h (bind m k).
Proof.
  intros Hm Hk s. specialize (Hm s). unfold bind. destruct (m s) as [s1 [x|e|]]; cbn [fst snd] in *.
  - rewrite !Hk, !Hm. auto.
  - auto.
  - auto.
Qed.
Lemma en_map {X Y} h (f : X → Y) (m : M S X) : en h m → en h (mapM f m).
Proof. intros Hm s. specialize (Hm s). unfold mapM. destruct (m s) as [s1 [x|e|]]; cbn [fst snd omap_out] in *; destruct Hm as [H1 H2]; (split; [done|]); [|done|done]. intros _ _. by apply (H2 x). Qed.
End eff.

Lemma kp_blind {X} K (m : M registry X) : blind K m → kp rg_pool m.
Proof. intros Hm r. by apply (Hm r (rg_pool r)). Qed.

Section effects.
Context (U : universe).
Notation T := (λ _ : handle, True).

Lemma kp_remove_location id : kp rg_pool (rg_remove_location id).
Proof. intros r. unfold rg_remove_location. by destruct (sm_erase _ _ _) as [[? ?]|]. Qed.
Lemma kp_set_location id l : kp rg_pool (rg_set_location id l).
Proof. by apply (kp_blind T), bl_set_location. Qed.

Lemma en_destroy h : en rg_pool h (rg_destroy U h).
Proof.
  apply en_bind; [by apply (kp_blind T), bl_location|]. intros l. apply en_bind; [by apply (kp_blind T), bl_arch|]. intros mv.
  apply en_bind; [apply kp_remove_location|]. intros _. apply en_bind; [destruct mv; [apply kp_set_location|apply kp_ret]|]. intros _.
  intros r. unfold rg_recycle. cbn [fst snd rg_set_pool rg_pool]. auto.
Qed.
Lemma pool_create_then {X} (k : handle → M registry X) r : (∀ x, kp rg_pool (k x)) → rg_pool (bind rg_allocate k r).1 = (pool_create (rg_pool r)).1.
Proof.
  intros Hk. unfold bind, rg_allocate. destruct (pool_create (rg_pool r)) as [p [x|e|]]; cbn [fst]; [|done|done]. by rewrite Hk.
Qed.
Lemma eff_create args r : rg_pool (rg_create U args r).1 = (pool_create (rg_pool r)).1.
Proof.
  apply pool_create_then. intros h. apply kp_bind; [by apply (kp_blind T), bl_search|]. intros a. apply kp_bind; [by apply (kp_blind T), bl_arch|]. intros p.
  apply kp_bind; [apply kp_set_location|]. intros _. apply kp_ret.
Qed.
Lemma eff_copy src h r : rg_pool (rg_copy U src h r).1 = (pool_create (rg_pool r)).1.
Proof. apply pool_create_then. intros ph. by apply (kp_blind T), bl_copy_into. Qed.
Lemma eff_clone h r : rg_pool (rg_clone U h r).1 = (pool_create (rg_pool r)).1.
Proof. apply pool_create_then. intros ph. apply kp_bind; [done|]. intros r'. by apply (kp_blind T), bl_copy_into. Qed.

Definition fstp (ab : registry * registry) : pool := rg_pool ab.1.
Definition sndp (ab : registry * registry) : pool := rg_pool ab.2.
Lemma kp_fst {X} (m : M registry X) : kp rg_pool m → kp fstp (on_fst m).
Proof. intros Hm [a b]. specialize (Hm a). unfold on_fst, fstp. cbn [fst snd]. by destruct (m a). Qed.
Lemma kp_snd {X} (m : M registry X) : kp fstp (on_snd m).
Proof. intros [a b]. unfold on_snd, fstp. cbn [fst snd]. by destruct (m b). Qed.
Lemma en_move_into h ph : en fstp h (rg_move_into U h ph).
Proof.
  apply en_bind; [by apply kp_fst, (kp_blind T), bl_location|]. intros l. apply en_bind; [by apply kp_fst, (kp_blind T), bl_arch|]. intros ar.
  apply en_bind; [apply kp_snd|]. intros b. apply en_bind.
  - intros [x y]. destruct (lc_arch l) as [a|]; [|done]. cbn [fst snd]. destruct (rg_heap x !! a) as [x'|]; [|done].
    destruct (rg_heap y !! b) as [y'|]; [|done]. by destruct (ar_move _ _ _ _) as [[? ?] ?].
  - intros x. apply en_bind; [apply kp_fst, kp_remove_location|]. intros _. apply en_bind.
    { destruct x.2; [|apply kp_ret]. case_decide; [apply kp_ret|apply kp_fst, kp_set_location]. }
    intros _. apply en_last; [by intros [a c]|]. intros _. apply kp_bind; [apply kp_snd|]. intros _. apply kp_bind; [apply kp_snd|]. intros _. apply kp_ret.
Qed.
Lemma snd_move_into h ph a b : sndp (rg_move_into U h ph (a, b)).1 = rg_pool b.
Proof. by apply (b2_move_into U h ph a b (rg_pool b)). Qed.
Lemma en_move h : en fstp h (rg_move U h).
Proof. apply en_bind; [apply kp_snd|]. intros ph. apply en_move_into. Qed.
Lemma snd_move h a b : sndp (rg_move U h (a, b)).1 = (pool_create (rg_pool b)).1.
Proof.
  unfold rg_move, bind, on_snd, rg_allocate. cbn [fst snd]. destruct (pool_create (rg_pool b)) as [p [x|e|]]; cbn [fst]; [|done|done].
  by rewrite snd_move_into.
Qed.
End effects.

(** * Programs *)
Section progs.
Context (U : universe).
Hypothesis HU : u_wf U.

(** What a step does to the pool [p], the handles in use [u] and the failed calls: the ids spent are covered, and new ids are
    taken only when all are spent. *)
Definition pays (p p' : pool) (u u' : nat) (b : bool) : Prop :=
  (spent p' - spent p <= Z.of_nat u' - Z.of_nat u + (if b then 1 else 0))%Z ∧
  (next_id p' = next_id p ∨ Z.of_N (next_id p') = spent p').
Lemma pays_refl p u : pays p p u u false.
Proof. split; [lia|by left]. Qed.

Notation use s := (length (in_use s)).
Lemma use_issue s h : swf s → h ∉ sr_issued s → length (filter (λ x, x ∉ sr_dead s) (h :: sr_issued s)) = S (use s).
Proof. intros (_ & Hd & _) Hh. apply use_cons. set_solver. Qed.

Lemma ri_pool n r s iss hp : ri U n r s iss hp → sr_pending s = [] → hinv n (Hist (rg_pool r) iss (sr_dead s) [] []).
Proof. intros Hri Hp. pose proof (rv_pool _ _ _ _ _ _ _ _ _ (ri_inv _ _ _ _ _ _ Hri)) as H. by rewrite Hp in H. Qed.

Lemma pays_new n r s iss hp r' h : ri U n r s iss hp → below_wrap (S n) → swf s → sr_pending s = [] → h ∉ sr_issued s →
  rg_pool r' = (pool_create (rg_pool r)).1 →
  pays (rg_pool r) (rg_pool r') (use s) (length (filter (λ x, x ∉ sr_dead s) (h :: sr_issued s))) false.
Proof.
  intros Hri Hw Hs Hp Hh ->. rewrite (use_issue s h Hs Hh). destruct (spent_create _ _ _ _ (ri_pool _ _ _ _ _ Hri Hp) Hw) as [E1 E2].
  split; [lia|done].
Qed.
Lemma pays_lost n r s iss hp r' : ri U n r s iss hp → below_wrap (S n) → sr_pending s = [] →
  rg_pool r' = (pool_create (rg_pool r)).1 → pays (rg_pool r) (rg_pool r') (use s) (use s) true.
Proof.
  intros Hri Hw Hp ->. destruct (spent_create _ _ _ _ (ri_pool _ _ _ _ _ Hri Hp) Hw) as [E1 E2]. split; [lia|done].
Qed.
Lemma pays_kill n r s iss hp r' h m : ri U n r s iss hp → sr_pending s = [] → NoDup (sr_issued s) → sr_world s !! h = Some m →
  rg_pool r' = pool_recycle (rg_pool r) h → pays (rg_pool r) (rg_pool r') (use s) (use (kill s h)) false.
Proof.
  intros Hri Hp Hnd Hw ->. pose proof (ri_inv _ _ _ _ _ _ Hri) as H. destruct (rv_live _ _ _ _ _ _ _ _ _ H h ltac:(eauto)) as (H1 & H2 & H3).
  pose proof (alive_live U H h H1 H2 H3) as Ha. pose proof (spent_recycle _ _ _ _ h (ri_pool _ _ _ _ _ Hri Hp) Ha) as E.
  pose proof (use_kill h (sr_issued s) (sr_dead s) Hnd H2) as Hk. split; [|left; apply next_recycle].
  unfold in_use. cbn [kill sr_dead sr_issued]. lia.
Qed.
(** A failed destroy. *)
Lemma pays_less n r s iss hp r' h : ri U n r s iss hp → sr_pending s = [] →
  rg_pool r' = rg_pool r ∨ rg_pool r' = pool_recycle (rg_pool r) h → pays (rg_pool r) (rg_pool r') (use s) (use s) false.
Proof.
  intros Hri Hp [->| ->]; [apply pays_refl|]. split; [|left; apply next_recycle]. destruct (pool_alive (rg_pool r) h) eqn:Ea.
  - rewrite (spent_recycle _ _ _ _ h (ri_pool _ _ _ _ _ Hri Hp) Ea). lia.
  - rewrite (recycle_dead _ _ Ea). lia.
Qed.

Lemma rop_pays n r s iss hp op r' o s' : ri U n r s iss hp → below_wrap (S n) → swf s → NoDup (sr_issued s) → permitted U s op →
  run_rop U op r = (r', o) → rnext U s op o s' →
  pays (rg_pool r) (rg_pool r') (use s) (use s') (loses 0 (At 0 op) o) ∧ NoDup (sr_issued s').
Proof.
  intros Hri Hw Hs Hnd Hper Hrun Hn.
  assert (∀ K, blind K (run_rop U op) → rg_pool r' = rg_pool r) as Hb.
  { intros K HK. pose proof (kp_blind K _ HK r) as E. by rewrite Hrun in E. }
  assert (sr_issued s' = sr_issued s → sr_dead s' = sr_dead s → rg_pool r' = rg_pool r → loses 0 (At 0 op) o = false →
    pays (rg_pool r) (rg_pool r') (use s) (use s') (loses 0 (At 0 op) o) ∧ NoDup (sr_issued s')) as Hsame.
  { intros E1 E2 -> ->. unfold in_use. rewrite E1, E2. split; [apply pays_refl|done]. }
  destruct op; cbn [permitted rnext] in Hper, Hn.
  - (* create *)
    assert (rg_pool r' = (pool_create (rg_pool r)).1) as E.
    { rewrite <- (eff_create U args r). cbn [run_rop] in Hrun. unfold mapM in Hrun. destruct (rg_create U args r). by injection Hrun as <- _. }
    destruct Hn as [(h & Hh & -> & ->)|(-> & _ & ->)].
    + split; [exact (pays_new n r s iss hp r' h Hri Hw Hs (proj1 Hper) Hh E)|]. cbn. by constructor.
    + split; [|done]. exact (pays_lost n r s iss hp r' Hri Hw (proj1 Hper) E).
  - (* destroy *)
    cbn [run_rop] in Hrun. destruct (en_map rg_pool h (λ _, RUnit) _ (en_destroy U h) r) as [E1 E2]. rewrite Hrun in E1, E2. cbn [fst snd] in E1, E2.
    destruct (sr_world s !! h) as [m|] eqn:Hwh.
    + destruct Hn as [-> ->]. split; [|done]. eapply pays_kill; [done|done|done|done|]. by eapply E2.
    + destruct Hn as [(e & -> & _) ->]. split; [|done]. by eapply pays_less.
  - assert (∃ w' f, s' = SReg w' (sr_issued s) (sr_dead s) (sr_pending s) f (sr_leaky s)) as (w' & f & ->).
    { destruct (sr_world s !! h) as [m|]; [|destruct Hn as [_ ->]; exists (sr_world s), (sr_failed s); by destruct s].
      destruct x; [destruct Hn as [[_ ->]|(_ & _ & _ & ->)]|destruct Hn as [_ ->]]; unfold with_world, fail; [eauto|eauto|].
      exists (sr_world s), (sr_failed s); by destruct s. }
    apply Hsame; try done. apply (Hb (λ _, True)). by apply bl_map, bl_set.
  - assert (∃ w' f, s' = SReg w' (sr_issued s) (sr_dead s) (sr_pending s) f (sr_leaky s)) as (w' & f & ->).
    { destruct (sr_world s !! h) as [m|]; [|destruct Hn as [_ ->]; exists (sr_world s), (sr_failed s); by destruct s].
      destruct (m !! c); [destruct Hn as [_ ->]; exists (sr_world s), (sr_failed s); by destruct s|].
      destruct x; [destruct Hn as [[_ ->]|(_ & _ & ->)]|done]; unfold with_world, fail; eauto. }
    apply Hsame; try done. apply (Hb (λ _, True)). by apply bl_map, bl_goi.
  - assert (∃ w' f, s' = SReg w' (sr_issued s) (sr_dead s) (sr_pending s) f (sr_leaky s)) as (w' & f & ->).
    { destruct (sr_world s !! h) as [m|]; [|destruct Hn as [_ ->]; exists (sr_world s), (sr_failed s); by destruct s].
      destruct Hn as [[_ ->]|(_ & _ & _ & ->)]; unfold with_world, fail; eauto. }
    apply Hsame; try done. apply (Hb (λ _, True)). by apply bl_map, bl_remove.
  - assert (s' = s) as -> by (destruct (sr_world s !! h); by destruct Hn as [_ ->]).
    apply Hsame; try done. apply (Hb (λ _, True)). by apply bl_map, bl_get.
  - assert (s' = s) as -> by (destruct (sr_world s !! h); [by destruct Hn as (_ & _ & _ & ->)|by destruct Hn as [_ ->]]).
    apply Hsame; try done. apply (Hb (λ _, True)). by apply bl_map, bl_has.
  - assert (s' = s) as -> by (destruct (sr_world s !! h); [by destruct Hn as (_ & _ & _ & _ & ->)|by destruct Hn as [_ ->]]).
    apply Hsame; try done. apply (Hb (λ _, True)). by apply bl_map, bl_visit.
  - destruct Hn as (b & -> & _ & _ & ->). apply Hsame; try done. by injection Hrun as <-.
  - destruct Hn as (-> & ->). apply Hsame; try done. by injection Hrun as <-.
  - (* clone *)
    assert (rg_pool r' = (pool_create (rg_pool r)).1) as E.
    { rewrite <- (eff_clone U h r). cbn [run_rop] in Hrun. unfold mapM in Hrun. destruct (rg_clone U h r). by injection Hrun as <- _. }
    destruct (sr_world s !! h) as [m|].
    + destruct Hn as [(_ & ph & Hh & -> & ->)|(_ & -> & ->)].
      * split; [exact (pays_new n r s iss hp r' ph Hri Hw Hs Hper Hh E)|]. cbn. by constructor.
      * split; [|done]. exact (pays_lost n r s iss hp r' Hri Hw Hper E).
    + destruct Hn as [(e & -> & _) ->]. split; [|done]. exact (pays_lost n r s iss hp r' Hri Hw Hper E).
  - (* clone into a placeholder *)
    assert (∃ w' f, s' = SReg w' (sr_issued s) (sr_dead s) (sr_pending s) (sr_failed s) f) as (w' & f & ->).
    { destruct (sr_world s !! h) as [m|]; [|destruct Hn as [_ ->]; exists (sr_world s), (sr_leaky s); by destruct s].
      destruct Hn as [(_ & _ & ->)|(_ & _ & ->)]; unfold with_world, leak; eauto. }
    apply Hsame; try done. apply (Hb (λ _, True)). by apply bl_map, bl_clone_into.
  - (* reserve *)
    assert (rg_pool r' = (pool_reserve (rg_pool r)).1) as E.
    { cbn [run_rop] in Hrun. unfold mapM, rg_reserve in Hrun. destruct (pool_reserve (rg_pool r)) as [p q]. by injection Hrun as <- _. }
    destruct Hn as (h & Hh & -> & ->). split; [|cbn; by constructor]. unfold in_use at 2. cbn [sr_dead sr_issued]. rewrite (use_issue s h Hs Hh).
    destruct (spent_reserve _ _ _ _ _ (rv_pool _ _ _ _ _ _ _ _ _ (ri_inv _ _ _ _ _ _ Hri)) Hw) as [E1 E2]. rewrite E. change (loses 0 (At 0 OReserve) (Ok (RHandle h))) with false. split; [lia|done].
  - (* sync *)
    destruct Hn as [-> ->]. split; [|done]. cbn [run_rop] in Hrun. unfold mapM, rg_sync in Hrun. injection Hrun as <-. cbn [rg_set_pool rg_pool].
    change (loses 0 (At 0 OSync) (Ok RUnit)) with false. split; [rewrite spent_flush; unfold in_use; cbn [sr_dead sr_issued]; lia|by left].
  - destruct Hn as (es & w' & _ & _ & _ & ->). apply Hsame; try done. apply (Hb (λ _, True)). by apply bl_map, bl_each.
  - destruct Hn as [-> _]. apply Hsame; try done. apply (Hb (λ _, True)). by apply bl_map, bl_single.
Qed.

Lemma regs_run (j k i : nat) (m : M (registry * registry) rres) rs rs' o a b : rs !! j = Some a → rs !! k = Some b → j ≠ k → on_regs j k m rs = (rs', o) →
  (m (a, b)).2 = o ∧ rs' = <[k := (m (a, b)).1.2]> (<[j := (m (a, b)).1.1]> rs).
Proof. intros Ha Hb Hjk. unfold on_regs. rewrite Ha, Hb. destruct (m (a, b)) as [[a' b'] o']. by intros [= <- <-]. Qed.

Lemma sop_pays n rs ss op rs' o ss' (i : nat) r s r' s' : sys U n rs ss → below_wrap (S n) → Forall swf ss → spermitted U ss op →
  run_sop U op rs = (rs', o) → snext U ss op o ss' → rs !! i = Some r → ss !! i = Some s → rs' !! i = Some r' → ss' !! i = Some s' →
  NoDup (sr_issued s) → pays (rg_pool r) (rg_pool r') (use s) (use s') (loses i op o) ∧ NoDup (sr_issued s').
Proof.
  intros Hsys Hw Hswf Hper Hrun Hn Hr Hs Hr' Hs' Hnd. pose proof (Forall_lookup_1 _ _ _ _ Hswf Hs) as Hsw.
  destruct (sys_get U _ _ _ _ _ Hsys Hs) as (r0 & iss & hp & Hr0 & Hri). rewrite Hr in Hr0. injection Hr0 as <-.
  assert (∀ b, rg_pool r' = rg_pool r → sr_issued s' = sr_issued s → sr_dead s' = sr_dead s → b = false →
    pays (rg_pool r) (rg_pool r') (use s) (use s') b ∧ NoDup (sr_issued s')) as Hsame.
  { intros b -> E1 E2 ->. unfold in_use. rewrite E1, E2. split; [apply pays_refl|done]. }
  assert (∀ op' : rop, loses 0 (At 0 op') o = loses i (At i op') o) as Hl0.
  { intros op'. cbn [loses]. by rewrite !bool_decide_true by done. }
  assert (∀ (x y : list sreg), x !! i = Some s' → x = ss → s' = s) as Hid. { intros x _ Hx ->. congruence. }
  destruct op as [j op|j h k|j h k ph|j h k|j h k ph]; cbn [spermitted snext run_sop] in Hper, Hn, Hrun.
  - destruct Hn as (t & t' & Ht & Hn & ->). destruct Hper as (t0 & Ht0 & Hper). rewrite Ht in Ht0. injection Ht0 as <-.
    unfold on_reg in Hrun. destruct (decide (j = i)) as [->|Hji].
    + rewrite Hs in Ht. injection Ht as <-. rewrite Hr in Hrun. destruct (run_rop U op r) as [r1 o1] eqn:E. injection Hrun as <- <-.
      rewrite list_lookup_insert in Hr' by (by eapply lookup_lt_Some). injection Hr' as ->.
      rewrite list_lookup_insert in Hs' by (by eapply lookup_lt_Some). injection Hs' as ->. rewrite <- Hl0. by eapply rop_pays.
    + rewrite list_lookup_insert_ne, Hs in Hs' by done. injection Hs' as <-.
      assert (r' = r) as ->.
      { destruct (rs !! j) as [x|]; [|injection Hrun as <- _; congruence]. destruct (run_rop U op x). injection Hrun as <- _.
        rewrite list_lookup_insert_ne in Hr' by done. congruence. }
      apply Hsame; try done. cbn [loses]. destruct op; try done; destruct o; try done; by apply bool_decide_eq_false.
  - destruct Hper as (Hjk & a & b & Ha & Hb & Hp). destruct Hn as (a0 & b0 & Ha0 & Hb0 & Hn). rewrite Ha in Ha0. injection Ha0 as <-. rewrite Hb in Hb0. injection Hb0 as <-.
    destruct (sys_get U _ _ _ _ _ Hsys Ha) as (ra & issa & hpa & Hra & Hria). destruct (sys_get U _ _ _ _ _ Hsys Hb) as (rb & issb & hpb & Hrb & Hrib).
    destruct (regs_run j k i _ _ _ _ _ _ Hra Hrb Hjk Hrun) as [Eo ->]. cbn [fst snd] in *.
    destruct (mapM RHandle (rg_copy U ra h) rb) as [b' o'] eqn:Em. cbn [fst snd] in *. subst o'.
    assert (rg_pool b' = (pool_create (rg_pool rb)).1) as Ep.
    { rewrite <- (eff_copy U ra h rb). unfold mapM in Em. destruct (rg_copy U ra h rb). by injection Em as <- _. }
    rewrite (list_insert_id rs) in Hr' by done. destruct (decide (k = i)) as [->|Hki].
    + rewrite Hr in Hrb. injection Hrb as <-. rewrite Hs in Hb. injection Hb as <-.
      rewrite list_lookup_insert in Hr' by (by eapply lookup_lt_Some). injection Hr' as ->.
      destruct (sr_world a !! h) as [m|].
      * destruct Hn as [(_ & ph & Hph & -> & ->)|(_ & -> & ->)];
          rewrite list_lookup_insert in Hs' by (by eapply lookup_lt_Some); injection Hs' as <-.
        -- split; [exact (pays_new n r s iss hp r' ph Hri Hw Hsw Hp Hph Ep)|]. cbn. by constructor.
        -- split; [|done]. cbn [loses]. rewrite bool_decide_true by done. exact (pays_lost n r s iss hp r' Hri Hw Hp Ep).
      * destruct Hn as [(e & -> & _) ->]. rewrite Hs in Hs'. injection Hs' as <-.
        split; [|done]. cbn [loses]. rewrite bool_decide_true by done. exact (pays_lost n r s iss hp r' Hri Hw Hp Ep).
    + rewrite list_lookup_insert_ne, Hr in Hr' by done. injection Hr' as <-.
      assert (s' = s) as ->.
      { destruct (sr_world a !! h); [destruct Hn as [(_ & ph & _ & _ & ->)|(_ & _ & ->)]|destruct Hn as [_ ->]]; [rewrite list_lookup_insert_ne in Hs' by done..|]; congruence. }
      apply Hsame; try done. cbn [loses]. destruct o; try done. by apply bool_decide_eq_false.
  - destruct Hper as (Hjk & a & b & Ha & Hb & Hp). destruct Hn as (a0 & b0 & Ha0 & Hb0 & Hn). rewrite Ha in Ha0. injection Ha0 as <-. rewrite Hb in Hb0. injection Hb0 as <-.
    destruct (sys_get U _ _ _ _ _ Hsys Ha) as (ra & issa & hpa & Hra & Hria). destruct (sys_get U _ _ _ _ _ Hsys Hb) as (rb & issb & hpb & Hrb & Hrib).
    destruct (regs_run j k i _ _ _ _ _ _ Hra Hrb Hjk Hrun) as [Eo ->]. cbn [fst snd] in *.
    destruct (mapM RHandle (rg_copy_into U ra h ph) rb) as [b' o'] eqn:Em. cbn [fst snd] in *. subst o'.
    assert (rg_pool b' = rg_pool rb) as Ep.
    { pose proof (kp_map rg_pool RHandle _ (kp_blind (λ _, True) _ (bl_copy_into U (λ _, True) ra h ph)) rb) as E. by rewrite Em in E. }
    rewrite (list_insert_id rs) in Hr' by done. assert (rg_pool r' = rg_pool r) as Epr.
    { apply list_lookup_insert_Some in Hr' as [(<- & <- & _)|[_ Hr']]; congruence. }
    assert (sr_issued s' = sr_issued s ∧ sr_dead s' = sr_dead s) as [E1 E2]; [|by apply Hsame].
    destruct (sr_world a !! h); [destruct Hn as [(_ & _ & ->)|(_ & _ & ->)]|destruct Hn as [_ ->]; rewrite Hs in Hs'; by injection Hs' as <-];
      apply list_lookup_insert_Some in Hs' as [(<- & <- & _)|[_ Hs']]; rewrite Hs in *; [injection Hb as <-|injection Hs' as <-|injection Hb as <-|injection Hs' as <-]; done.
  - destruct Hper as (Hjk & a & b & Ha & Hb & Hpa & Hp). destruct Hn as (a0 & b0 & Ha0 & Hb0 & Hn). rewrite Ha in Ha0. injection Ha0 as <-. rewrite Hb in Hb0. injection Hb0 as <-.
    destruct (sys_get U _ _ _ _ _ Hsys Ha) as (ra & issa & hpa & Hra & Hria). destruct (sys_get U _ _ _ _ _ Hsys Hb) as (rb & issb & hpb & Hrb & Hrib).
    destruct (regs_run j k i _ _ _ _ _ _ Hra Hrb Hjk Hrun) as [Eo ->].
    assert (sndp (mapM RHandle (rg_move U h) (ra, rb)).1 = (pool_create (rg_pool rb)).1) as Ep.
    { rewrite <- (snd_move U h ra rb). unfold mapM. by destruct (rg_move U h (ra, rb)). }
    destruct (en_map fstp h RHandle _ (en_move U h) (ra, rb)) as [E1 E2]. rewrite Eo in E2.
    destruct (mapM RHandle (rg_move U h) (ra, rb)) as [[a' b'] o']. unfold fstp, sndp in *. cbn [fst snd] in *. subst o'.
    destruct (decide (k = i)) as [->|Hki].
    + rewrite Hr in Hrb. injection Hrb as <-. rewrite Hs in Hb. injection Hb as <-.
      rewrite list_lookup_insert in Hr' by (rewrite insert_length; by eapply lookup_lt_Some). injection Hr' as ->.
      destruct (sr_world a !! h) as [m|].
      * destruct Hn as (ph & Hph & -> & ->). rewrite list_lookup_insert in Hs' by (rewrite insert_length; by eapply lookup_lt_Some). injection Hs' as <-.
        split; [exact (pays_new n r s iss hp r' ph Hri Hw Hsw Hp Hph Ep)|]. cbn. by constructor.
      * destruct Hn as [(e & -> & _) ->]. rewrite Hs in Hs'. injection Hs' as <-.
        split; [|done]. cbn [loses]. rewrite bool_decide_true by done. exact (pays_lost n r s iss hp r' Hri Hw Hp Ep).
    + assert (loses i (Move j h k) o = false) as -> by (cbn [loses]; destruct o; try done; by apply bool_decide_eq_false).
      rewrite list_lookup_insert_ne in Hr' by done. destruct (decide (j = i)) as [->|Hji].
      * rewrite Hr in Hra. injection Hra as <-. rewrite Hs in Ha. injection Ha as <-.
        rewrite list_lookup_insert in Hr' by (by eapply lookup_lt_Some). injection Hr' as ->.
        destruct (sr_world s !! h) as [m|] eqn:Hm.
        -- destruct Hn as (ph & Hph & -> & ->). rewrite list_lookup_insert_ne, list_lookup_insert in Hs' by (done || by eapply lookup_lt_Some). injection Hs' as <-.
           split; [|done]. eapply pays_kill; [done|done|done|done|]. by eapply E2.
        -- destruct Hn as [(e & -> & _) ->]. rewrite Hs in Hs'. injection Hs' as <-. split; [|done]. by eapply pays_less.
      * rewrite list_lookup_insert_ne, Hr in Hr' by done. injection Hr' as <-.
        assert (s' = s) as ->.
        { destruct (sr_world a !! h); [destruct Hn as (ph & _ & _ & ->)|destruct Hn as [_ ->]]; [rewrite !list_lookup_insert_ne in Hs' by done|]; congruence. }
        by apply Hsame.
  - destruct Hper as (Hjk & a & b & Ha & Hb & Hpa & Hp). destruct Hn as (a0 & b0 & Ha0 & Hb0 & Hn). rewrite Ha in Ha0. injection Ha0 as <-. rewrite Hb in Hb0. injection Hb0 as <-.
    destruct (sys_get U _ _ _ _ _ Hsys Ha) as (ra & issa & hpa & Hra & Hria). destruct (sys_get U _ _ _ _ _ Hsys Hb) as (rb & issb & hpb & Hrb & Hrib).
    destruct (regs_run j k i _ _ _ _ _ _ Hra Hrb Hjk Hrun) as [Eo ->].
    assert (sndp (mapM RHandle (rg_move_into U h ph) (ra, rb)).1 = rg_pool rb) as Ep.
    { rewrite <- (snd_move_into U h ph ra rb). unfold mapM. by destruct (rg_move_into U h ph (ra, rb)). }
    destruct (en_map fstp h RHandle _ (en_move_into U h ph) (ra, rb)) as [E1 E2]. rewrite Eo in E2.
    destruct (mapM RHandle (rg_move_into U h ph) (ra, rb)) as [[a' b'] o']. unfold fstp, sndp in *. cbn [fst snd] in *. subst o'.
    change (loses i (MoveInto j h k ph) o) with false.
    destruct (decide (k = i)) as [->|Hki].
    + rewrite Hr in Hrb. injection Hrb as <-. rewrite Hs in Hb. injection Hb as <-.
      rewrite list_lookup_insert in Hr' by (rewrite insert_length; by eapply lookup_lt_Some). injection Hr' as ->.
      assert (sr_issued s' = sr_issued s ∧ sr_dead s' = sr_dead s) as [Es1 Es2]; [|by apply Hsame].
      destruct (sr_world a !! h) as [m|].
      * destruct Hn as (-> & ->). rewrite list_lookup_insert in Hs' by (rewrite insert_length; by eapply lookup_lt_Some). by injection Hs' as <-.
      * destruct Hn as [_ ->]. rewrite Hs in Hs'. by injection Hs' as <-.
    + rewrite list_lookup_insert_ne in Hr' by done. destruct (decide (j = i)) as [->|Hji].
      * rewrite Hr in Hra. injection Hra as <-. rewrite Hs in Ha. injection Ha as <-.
        rewrite list_lookup_insert in Hr' by (by eapply lookup_lt_Some). injection Hr' as ->.
        destruct (sr_world s !! h) as [m|] eqn:Hm.
        -- destruct Hn as (-> & ->). rewrite list_lookup_insert_ne, list_lookup_insert in Hs' by (done || by eapply lookup_lt_Some). injection Hs' as <-.
           split; [|done]. eapply pays_kill; [done|done|done|done|]. by eapply E2.
        -- destruct Hn as [(e & -> & _) ->]. rewrite Hs in Hs'. injection Hs' as <-. split; [|done]. by eapply pays_less.
      * rewrite list_lookup_insert_ne, Hr in Hr' by done. injection Hr' as <-.
        assert (s' = s) as ->.
        { destruct (sr_world a !! h); [destruct Hn as (_ & ->)|destruct Hn as [_ ->]]; [rewrite !list_lookup_insert_ne in Hs' by done|]; congruence. }
        by apply Hsame.
Qed.

Lemma frugal_reach K i L n rs ss : frugal U K i L n rs ss → reach U n rs ss.
Proof. induction 1; [constructor|by eapply ReachS]. Qed.

Lemma frugal_bound K (i : nat) L n rs ss r s : frugal U K i L n rs ss → below_wrap (2 * n) → rs !! i = Some r → ss !! i = Some s →
  (spent (rg_pool r) <= Z.of_nat (use s + L))%Z ∧ (next_id (rg_pool r) <= N.of_nat (K + L))%N ∧ NoDup (sr_issued s).
Proof.
  intros Hf. revert r s. induction Hf as [k|L n rs ss op rs' o ss' Hf IH Hper Hrun Hn Hag HK]; intros r s Hw Hr Hs.
  - apply lookup_replicate in Hr as [-> _]. apply lookup_replicate in Hs as [-> _]. cbn. split; [done|]. split; [lia|constructor].
  - pose proof (frugal_reach _ _ _ _ _ _ Hf) as Hre.
    assert (below_wrap (2 * n)) as Hw2 by (unfold below_wrap in *; lia). pose proof (reach_sys U HU _ _ _ Hre Hw2) as Hsys.
    assert (∃ s0, ss !! i = Some s0) as [s0 Hs0].
    { apply lookup_lt_is_Some. apply lookup_lt_Some in Hs. pose proof (Forall2_length _ _ _ Hsys).
      pose proof (reach_sys U HU _ _ _ (frugal_reach _ _ _ _ _ _ (FrugalS U K i _ _ _ _ _ _ _ _ Hf Hper Hrun Hn Hag HK)) Hw) as Hsys'. apply Forall2_length in Hsys'.
      enough (length ss' = length ss) by lia. destruct op; cbn [snext] in Hn.
      - destruct Hn as (? & ? & _ & _ & ->). by rewrite insert_length.
      - destruct Hn as (a & b & _ & _ & Hn). destruct (sr_world a !! h); [destruct Hn as [(_ & ? & _ & _ & ->)|(_ & _ & ->)]|destruct Hn as [_ ->]]; by rewrite ?insert_length.
      - destruct Hn as (a & b & _ & _ & Hn). destruct (sr_world a !! h); [destruct Hn as [(_ & _ & ->)|(_ & _ & ->)]|destruct Hn as [_ ->]]; by rewrite ?insert_length.
      - destruct Hn as (a & b & _ & _ & Hn). destruct (sr_world a !! h); [destruct Hn as (? & _ & _ & ->)|destruct Hn as [_ ->]]; by rewrite ?insert_length.
      - destruct Hn as (a & b & _ & _ & Hn). destruct (sr_world a !! h); [destruct Hn as (_ & ->)|destruct Hn as [_ ->]]; by rewrite ?insert_length. }
    destruct (sys_get U _ _ _ _ _ Hsys Hs0) as (r0 & iss & hp & Hr0 & Hri). destruct (IH r0 s0 Hw2 Hr0 Hs0) as (I1 & I2 & I3).
    destruct (sop_pays _ _ _ _ _ _ _ i r0 s0 r s Hsys ltac:(unfold below_wrap in *; lia) ltac:(by eapply reach_swf) Hper Hrun Hn Hr0 Hs0 Hr Hs I3) as [[P1 P2] P3].
    specialize (HK s Hs). destruct (loses i op o); (split; [lia|]); (split; [|done]); destruct P2 as [->|P2]; lia.
Qed.
End progs.
