(** Every step of the work-stealing queue with its memory orders keeps the invariant. *)
From Verif Require Import Base WeakMem WSQueue WSQueueProofs WeakQueue WeakQueueProofs.
Ltac Zify.zify_post_hook ::= Z.div_mod_to_equations.
Local Open Scope Z_scope.

Section steps.
Context {A : Type}.
Variables array_store array_load : order.
Notation item := (A * gset ev)%type.
Notation wstep := (wstep (A:=A) array_store array_load).
Notation wowner := (wowner (A:=A) array_store).
Notation wthief := (wthief (A:=A) array_load).
Notation sync_array := (sync_array (A:=A) array_store array_load).
Implicit Types (s : wsys A) (l : list item) (x : item).

Lemma ts_mono (v w : qview) (k : loc) : vle v w → (ts v k <= ts w k)%nat.
Proof. intros [Hv _]. apply Hv. Qed.
Lemma ev_mono (v w : qview) : vle v w → v_ev v ⊆ v_ev w.
Proof. by intros [_ Hv]. Qed.
Lemma learn_le (v : qview) (t : qtview) : vle (t_cur t) (t_cur (learn v t)).
Proof. apply vle_join_l. Qed.

Lemma use_known (a : nat) (t : qtview) s : EvArray a ∈ v_ev (t_cur t) → use a t s = s.
Proof.
  intros He. unfold use, race_on. rewrite bool_decide_eq_false_2 by (by intros ?). rewrite orb_false_r. by destruct s.
Qed.

Lemma knows_mono s v w : vle v w → knows_all s v → knows_all s w.
Proof.
  intros Hv (H1 & H2 & H3). split; [pose proof (ts_mono v w LBot Hv); lia|].
  split; [pose proof (ts_mono v w LArr Hv); lia|]. intros a ar Ha. destruct (H3 a ar Ha) as [H4 H5].
  split; [pose proof (ev_mono _ _ Hv); set_solver|]. intros i. pose proof (ts_mono v w (LCell a i) Hv). specialize (H5 i). lia.
Qed.

(** The owner changes only its position and learns something. *)
Lemma winv_owner s h l pend o' t' h' pend' :
  winv s h l pend → s_inv (p_sys (set_owner s o' t')) h' l pend' →
  p_end (set_owner s o' t') = p_end s →
  vle (t_rel (w_to s)) (t_rel t') → vle (t_rel t') (t_cur t') → vle (t_cur (w_to s)) (t_cur t') → vle (t_cur t') (t_acq t') →
  owner_ok (set_owner s o' t') → winv (set_owner s o' t') h' l pend'.
Proof.
  intros (_ & Hb & _ & Ht & Hs) Hi He Hr Hrc Hc Hca Ho. split; [done|]. split; [|split; [done|split; [exact Ht|]]].
  - destruct Hb as (H1 & H2 & H3 & H4 & H5 & H5' & H6 & H7 & H8 & H9 & H10 & H11).
    unfold basic_ok. rewrite He. cbn [set_owner w_top w_bot w_arr w_arrs w_to w_race w_sc].
    do 6 (split; [done|]). split; [done|]. split; [done|].
    split; [by eapply knows_mono|]. pose proof (ts_mono _ _ LTop Hc) as Hlt.
    change (o_top (set_owner s o' t')) with (Z.of_nat (ts (t_cur t') LTop)). unfold o_top in *.
    split; [unfold sc_top, p_top in *; cbn; lia|]. split; [|done]. unfold cur_cap in *; cbn. unfold p_cur in *; cbn. lia.
  - destruct Hs as [Hs1 Hs2]. split; [|rewrite He; exact Hs2]. intros k x Hk. cbn [set_owner w_to].
    apply (cov_mono s (t_rel (w_to s))); [done|]. by apply Hs1.
Qed.
Lemma winv_load s h l pend o' t' h' pend' :
  winv s h l pend → s_inv (p_sys (set_owner s o' t')) h' l pend' →
  p_end (set_owner s o' t') = p_end s →
  t_rel t' = t_rel (w_to s) → vle (t_cur (w_to s)) (t_cur t') → (vle (t_cur (w_to s)) (t_acq (w_to s)) → vle (t_cur t') (t_acq t')) →
  owner_ok (set_owner s o' t') → winv (set_owner s o' t') h' l pend'.
Proof.
  intros Hi Hsi He Hr Hc Hca Ho. pose proof Hi as (_ & (_ & _ & _ & _ & _ & _ & H6 & H7 & _) & _).
  eapply winv_owner; try done; [rewrite Hr; apply vle_refl|rewrite Hr; by eapply vle_trans|auto].
Qed.

(** The owner reads its own variables. *)
Lemma last_index {B} (h : list B) (n : nat) m : h !! n = Some m → (pred (length h) <= n)%nat → last h = Some m.
Proof. intros Hn Hle. pose proof (lookup_lt_Some _ _ _ Hn). rewrite last_lookup. by replace (pred (length h)) with n by lia. Qed.

Lemma own_bot s o n r t' : basic_ok s → load o LBot n (w_bot s) (w_to s) = Some (r, t') → r = p_bot s.
Proof.
  intros (_ & _ & _ & _ & _ & _ & _ & _ & (Hk & _) & _) Hl. apply load_spec in Hl as (m & Hm & -> & Hle & _).
  unfold p_bot. rewrite (last_index _ _ _ Hm) by lia. done.
Qed.
Lemma own_arr s o n r t' : basic_ok s → load o LArr n (w_arr s) (w_to s) = Some (r, t') → r = p_cur s.
Proof.
  intros (_ & _ & _ & _ & _ & _ & _ & _ & (_ & Hk & _) & _) Hl. apply load_spec in Hl as (m & Hm & -> & Hle & _).
  unfold p_cur. rewrite (last_index _ _ _ Hm) by lia. done.
Qed.
Lemma top_val s (n : nat) m : basic_ok s → w_top s !! n = Some m → m_val m = Z.of_nat n ∧ Z.of_nat n <= p_top s.
Proof.
  intros (_ & _ & _ & Hv & _) Hn. split; [by apply Hv|]. unfold p_top. apply lookup_lt_Some in Hn. lia.
Qed.

Lemma step_push s h l pend (x : A) n s' :
  winv s h l pend → wstep (APush x n) s = Some s' → ∃ h' l' pend', winv s' h' l' pend'.
Proof.
  intros Hi. cbn. destruct (w_opc s) eqn:Ho; try done.
  destruct (load _ _ _ _ _) as [[b t']|] eqn:Hl; [|done]. cbn. intros [= <-]. exists h, l, [].
  pose proof Hi as (Hsi & Hb & _). pose proof (own_bot _ _ _ _ _ Hb Hl) as ->.
  apply load_spec in Hl as (m & Hm & _ & Hle & Hrel & Hc & Hca & _). destruct Hb as (_ & _ & _ & _ & _ & _ & Hva & _).
  eapply winv_load; [exact Hi| |unfold p_end; by rewrite Ho|done|done|auto|].
  - destruct Hsi as (ca & Hq & Hoi & Hr). unfold p_sys in *. cbn in *. rewrite Ho in Hoi, Hq, Hr. cbn in Hoi. subst pend.
    exists ca. cbn in *. done.
  - unfold owner_ok. cbn. by apply ev_mono.
Qed.

Lemma step_pop s h l pend n s' :
  winv s h l pend → wstep (APop n) s = Some s' → ∃ h' l' pend', winv s' h' l' pend'.
Proof.
  intros Hi. cbn. destruct (w_opc s) eqn:Ho; try done.
  destruct (load _ _ _ _ _) as [[b t']|] eqn:Hl; [|done]. cbn. intros [= <-]. exists h, l, [].
  pose proof Hi as (Hsi & Hb & _). pose proof (own_bot _ _ _ _ _ Hb Hl) as ->.
  apply load_spec in Hl as (m & Hm & _ & Hle & Hrel & Hc & Hca & _). destruct Hb as (_ & _ & _ & _ & _ & _ & Hva & _).
  eapply winv_load; [exact Hi| |unfold p_end; by rewrite Ho|done|done|auto|done].
  destruct Hsi as (ca & Hq & Hoi & Hr). unfold p_sys in *. cbn in *. rewrite Ho in Hoi, Hq, Hr. cbn in Hoi. subst pend.
  exists ca. cbn in *. done.
Qed.

Lemma fmap_alter_same {B C} (f : B → C) (g : B → B) j (ts : list B) : (∀ y, f (g y) = f y) → f <$> alter g j ts = f <$> ts.
Proof. intros Hf. revert j. induction ts as [|y ts IH]; intros [|j]; cbn; [done|done|by rewrite Hf|]. f_equal. apply IH. Qed.

(** Synchronisation elsewhere. *)
Lemma step_learn s h l pend j v : winv s h l pend → winv (learn_of s j v) h l pend.
Proof.
  intros Hi. pose proof Hi as (Hsi & Hb & Ho & Ht & Hs). destruct j as [j|]; cbn [learn_of].
  - assert (∀ pt, w_th s !! j = Some pt → thief_ok s l (pt.1, learn v pt.2)) as Hj.
    { intros [p t] Hp. pose proof (proj1 (Forall_lookup _ _) Ht j _ Hp) as Hk.
      apply (thief_learn s l p t (learn v t)); [apply vle_join_l| |apply vle_join_l|done].
      apply vjoin_mono; [|apply vle_refl]. by destruct Hk. }
    split; [|split; [exact Hb|split; [|split; [|exact Hs]]]].
    + unfold p_sys in *. cbn [w_th w_opc w_log]. rewrite fmap_alter_same by done. exact Hsi.
    + unfold owner_ok in *. cbn. destruct (w_opc s); try exact Ho. destruct Ho as (H1 & H2 & H3).
      split; [exact H1|]. split; [|exact H3]. apply Forall_alter; [exact H2|]. intros [p t] Hp Hf.
      unfold fenced in *. cbn [fst snd] in *. destruct p; try exact Hf. destruct Hf as [Hf|Hf]; [left|by right].
      pose proof (ts_mono _ _ LBot (learn_le v t)). cbn -[ts] in *. lia.
    + cbn. apply Forall_alter; [exact Ht|]. intros pt Hp _. by apply Hj.
  - eapply winv_load; [exact Hi|exact Hsi|done|done|apply vle_join_l| |].
    + intros Hva. apply vjoin_mono; [done|apply vle_refl].
    + pose proof (ts_mono _ _ LTop (learn_le v (w_to s))) as Htop. pose proof (ev_mono _ _ (learn_le v (w_to s))) as Hev.
      assert (o_top s <= o_top (set_owner s (w_opc s) (learn v (w_to s)))) as Hot by (unfold o_top; cbn -[ts] in *; lia).
      unfold owner_ok in *. cbn [set_owner w_opc]. destruct (w_opc s); try done.
      * cbn in *. set_solver.
      * destruct Ho. split; [cbn in *; set_solver|lia].
      * destruct Ho as [Ho1 Ho2]. split; [cbn in *; set_solver|]. unfold cur_cap, p_cur in *. cbn in *. lia.
      * destruct Ho as [Ho1 Ho2]. split; [cbn in *; set_solver|]. unfold cur_cap, p_cur in *. cbn in *. lia.
      * destruct Ho as [Ho1 Ho2]. split; [exact Ho1|]. unfold cur_cap, p_cur in *. cbn in *. lia.
      * destruct Ho as (H1 & H2 & H3). split; [exact H1|]. split; [|intros E; specialize (H3 E); lia].
        eapply Forall_impl; [exact H2|]. intros [p t]. unfold fenced. cbn [fst snd]. destruct p; try done; cbn [w_bot]; intros [?|?]; auto; right; lia.
      * lia.
      * lia.
Qed.

(** * Steps of the owner *)
Lemma s_len s h l pend : s_inv (p_sys s) h l pend → Z.of_nat (length l) = p_end s - p_top s.
Proof. by intros (ca & (_ & _ & Hlen & _) & _). Qed.

Lemma head_lookup l x : head l = Some x ↔ l !! 0%nat = Some x.
Proof. by destruct l. Qed.

(** A store to [_bottom] with the knowledge of the last release fence. *)
Lemma winv_bot s h l pend v o' log' h' l' pend' :
  let t' := learn (vat LBot (length (w_bot s))) (w_to s) in
  let s' := WSys (w_top s) (w_bot s ++ [Msg v (vjoin (t_rel (w_to s)) (vat LBot (length (w_bot s))))]) (w_arr s) (w_arrs s)
              (w_sc s) o' t' (w_th s) log' (w_race s) in
  winv s h l pend → s_inv (p_sys s') h' l' pend' →
  (∀ k x, l' !! k = Some x → cov s (t_rel (w_to s)) (p_top s + Z.of_nat k) x) →
  (∀ x, head l = Some x → head l' = Some x) →
  (∀ k x, l' !! k = Some x → p_top s + Z.of_nat k < p_end s → l !! k = Some x) →
  v <= p_end s' → p_end s <= p_end s' → p_end s' - o_top s <= cur_cap s →
  owner_ok s' → winv s' h' l' pend'.
Proof.
  intros t' s' (Hsi & Hb & _ & Ht & Hs) Hsi' Hcov Hh Hll Hv He Hcap Ho.
  assert (vle (t_cur (w_to s)) (t_cur t')) as Hct by apply vle_join_l.
  split; [done|]. split; [|split; [done|split]].
  - destruct Hb as (H1 & H2 & H3 & H4 & H5 & H5' & H6 & H7 & H8 & H9 & H10 & H11).
    unfold basic_ok. change (w_race s') with (w_race s).
    split; [done|]. split; [cbn; by destruct (w_bot s)|]. do 4 (split; [done|]).
    split; [apply vjoin_mono; [done|apply vle_refl]|]. split; [by eapply vle_trans|].
    assert (o_top s <= o_top s') as Hot by (unfold o_top; pose proof (ts_mono _ _ LTop Hct); cbn -[ts] in *; lia).
    split; [|split; [|split; [|done]]].
    + destruct H8 as (K1 & K2 & K3). split.
      * cbn -[ts]. rewrite app_length. cbn -[ts]. rewrite ts_join, ts_at_same. lia.
      * split; [cbn -[ts]; rewrite ts_join; lia|]. intros a ar Ha. destruct (K3 a ar Ha) as [K4 K5].
        split; [cbn; set_solver|]. intros i. specialize (K5 i). cbn -[ts]. rewrite ts_join. lia.
    + unfold p_top, sc_top in *. cbn in *. lia.
    + unfold cur_cap, p_cur in *. cbn in *. lia.
  - eapply Forall_impl; [exact Ht|]. intros pt. apply thief_keep; [done|unfold sc_top; cbn; lia|done|intros x Hx; split; [by apply Hh|done]|].
    intros k m Hk. cbn [w_bot] in Hk. apply lookup_app_Some in Hk as [Hk|[Hge Hk]]; [by left|]. right.
    apply list_lookup_singleton_Some in Hk as [_ <-]. cbn [m_val m_view]. intros Hlt.
    pose proof (s_len _ _ _ _ Hsi') as Hlen. change (p_top s') with (p_top s) in Hlen.
    destruct l' as [|x l']; [cbn in Hlen; lia|]. exists x. split; [done|].
    specialize (Hcov 0%nat x eq_refl). rewrite Z.add_0_r in Hcov. eapply cov_mono; [apply vle_join_l|exact Hcov].
  - destruct Hs as [Hs1 Hs2]. split; [exact Hcov|]. intros n m Hn Hsc. cbn [w_bot] in Hn.
    apply lookup_app_Some in Hn as [Hn|[Hge Hn]].
    + destruct (Hs2 n m Hn Hsc) as [Hm Hc]. split; [lia|]. intros k x Hk Hlt. change (p_top s') with (p_top s) in *.
      apply (Hc k x); [apply Hll; [done|lia]|done].
    + apply list_lookup_singleton_Some in Hn as [_ <-]. cbn [m_val m_view]. split; [done|]. intros k x Hk _.
      eapply cov_mono; [apply vle_join_l|]. by apply Hcov.
Qed.

Lemma knows_cov s (v : qview) ar i x :
  basic_ok s → knows_all s v → x.2 ⊆ v_ev v → w_arrs s !! p_cur s = Some ar → cell_val ar i = Some x → cov s v i x.
Proof.
  intros Hb (K1 & K2 & K3) Hx Har Hv. split; [done|]. intros j m Hj Hle.
  assert (m_val m = p_cur s) as ->.
  { unfold p_cur. rewrite (last_index _ _ _ Hj) by lia. done. }
  exists ar. split; [done|]. split; [done|]. destruct (K3 _ _ Har) as [_ K4]. specialize (K4 (slot ar i)).
  rewrite ts_join. lia.
Qed.

(** The current array. *)
Lemma s_cur s h l pend :
  s_inv (p_sys s) h l pend → ∃ ar, w_arrs s !! p_cur s = Some ar ∧ cur_cap s = wa_cap ar ∧ pow2Z (wa_cap ar) ∧
    q_inv (p_q s) (p_o (p_cur s) (w_opc s)) (p_arr ar) l ∧
    o_inv (p_q s) (p_o (p_cur s) (w_opc s)) (p_arr ar) l pend.
Proof.
  intros (ca & Hq & Ho & _). pose proof Hq as (Hcur & Hp2 & _). cbn in Hcur.
  rewrite list_lookup_fmap in Hcur. destruct (w_arrs s !! p_cur s) as [ar|] eqn:Har; [|done].
  injection Hcur as <-. exists ar. split; [done|]. unfold cur_cap. rewrite Har. done.
Qed.

(** Line 75. *)
Lemma step_WPushE s h l pend n s' x b :
  winv s h l pend → w_opc s = WPushE x b → wowner n s = Some s' → ∃ h' l' pend', winv s' h' l' pend'.
Proof.
  intros Hi Ho. unfold WeakQueue.wowner. rewrite Ho. cbn -[learn vjoin]. intros [= <-].
  pose proof Hi as (Hsi & Hb & Hoo & Ht & Hs). unfold owner_ok in Hoo. rewrite Ho in Hoo. destruct Hoo as [Hcov Hcap].
  pose proof (s_len _ _ _ _ Hsi) as Hlen. destruct (s_cur _ _ _ _ Hsi) as (ar & _ & _ & _ & _ & Hoi).
  rewrite Ho in Hoi. destruct Hoi as [Hbb _]. cbn in Hbb.
  assert (p_end s = b) as Hpe by (unfold p_end; rewrite Ho; cbn; done).
  unfold p_sys in Hsi. rewrite Ho in Hsi. cbn [p_o] in Hsi.
  destruct (owner_step_inv _ _ _ _ _ _ _ _ _ _ Hsi eq_refl) as (h' & l' & pend' & Hsi' & Hl).
  match goal with |- ∃ _ _ _, winv ?s' _ _ _ => set (s1 := s') end.
  assert (p_sys s1 = Sys (set_bot (p_q s) (b + 1)) OIdle ((λ pt, p_t pt.1) <$> w_th s) (add_event (w_log s) (Some (EPush x)))) as Hps.
  { unfold p_sys, p_q, p_bot. cbn. rewrite last_snoc. done. }
  rewrite <-Hps in Hsi'. pose proof (s_len _ _ _ _ Hsi') as Hlen'.
  assert (p_end s1 = b + 1) as Hpe' by (unfold p_end, p_q, p_bot; cbn; by rewrite last_snoc).
  change (p_top s1) with (p_top s) in Hlen'.
  assert (l' = l ++ [x]) as ->.
  { destruct Hl as [->|[(y & [= <-] & -> & _)|(y & -> & _)]]; [lia|done|]. rewrite app_length in Hlen. cbn in Hlen. lia. }
  exists h', (l ++ [x]), pend'. apply (winv_bot s h l pend (b + 1) WIdle (w_log s ++ [EPush x]) h' (l ++ [x]) pend' Hi Hsi'); [| | |change (b + 1 <= p_end s1); lia|change (p_end s <= p_end s1); lia|change (p_end s1 - o_top s <= cur_cap s); lia|done].
  - intros k y Hk. apply lookup_app_Some in Hk as [Hk|[Hge Hk]]; [by apply Hs|].
    apply list_lookup_singleton_Some in Hk as [Hk <-]. replace (p_top s + Z.of_nat k) with b by lia. done.
  - intros y. by destruct l.
  - intros k y Hk Hlt. rewrite lookup_app_l in Hk by lia. done.
Qed.

(** Line 103. *)
Lemma step_WPopA s h l pend n s' b a :
  winv s h l pend → w_opc s = WPopA b a → wowner n s = Some s' → ∃ h' l' pend', winv s' h' l' pend'.
Proof.
  intros Hi Ho. unfold WeakQueue.wowner. rewrite Ho. cbn -[learn vjoin]. intros [= <-].
  pose proof Hi as (Hsi & Hb & Hoo & Ht & Hs).
  pose proof (s_len _ _ _ _ Hsi) as Hlen. destruct (s_cur _ _ _ _ Hsi) as (ar & _ & _ & _ & _ & Hoi).
  rewrite Ho in Hoi. destruct Hoi as [Hbb _]. cbn in Hbb.
  assert (p_end s = b + 1) as Hpe by (unfold p_end; rewrite Ho; cbn; lia).
  unfold p_sys in Hsi. rewrite Ho in Hsi. cbn [p_o] in Hsi.
  destruct (owner_step_inv _ _ _ _ _ _ _ _ _ _ Hsi eq_refl) as (h' & l' & pend' & Hsi' & Hl).
  match goal with |- ∃ _ _ _, winv ?s' _ _ _ => set (s1 := s') end.
  assert (p_sys s1 = Sys (set_bot (p_q s) b) (OPopB b a) ((λ pt, p_t pt.1) <$> w_th s) (w_log s)) as Hps.
  { unfold p_sys, p_q, p_bot. cbn. rewrite last_snoc. done. }
  cbn [add_event] in Hsi'. rewrite <-Hps in Hsi'. pose proof (s_len _ _ _ _ Hsi') as Hlen'.
  assert (p_end s1 = b + 1) as Hpe' by done.
  change (p_top s1) with (p_top s) in Hlen'.
  assert (l' = l) as ->.
  { destruct Hl as [->|[(y & [=] & _)|(y & -> & _)]]; [done|]. rewrite app_length in Hlen. cbn in Hlen. lia. }
  exists h', l, pend'. destruct Hb as (_ & _ & _ & _ & _ & _ & _ & _ & _ & _ & Hcap & _).
  apply (winv_bot s h l pend b (WPopB b a) (w_log s) h' l pend' Hi Hsi'); [apply Hs|done|done|change (b <= p_end s1); lia|change (p_end s <= p_end s1); lia|change (p_end s1 - o_top s <= cur_cap s); lia|done].
Qed.

(** Lines 118 and 121. *)
Lemma step_WPopE s h l pend n s' b it :
  winv s h l pend → w_opc s = WPopE b it → wowner n s = Some s' → ∃ h' l' pend', winv s' h' l' pend'.
Proof.
  intros Hi Ho. unfold WeakQueue.wowner. rewrite Ho. cbn -[learn vjoin]. intros [= <-].
  pose proof Hi as (Hsi & Hb & Hoo & Ht & Hs).
  pose proof (s_len _ _ _ _ Hsi) as Hlen.
  assert (p_end s = b + 1) as Hpe by (unfold p_end; rewrite Ho; cbn; lia).
  unfold p_sys in Hsi. rewrite Ho in Hsi. cbn [p_o] in Hsi.
  destruct (owner_step_inv _ _ _ _ _ _ _ _ _ _ Hsi eq_refl) as (h' & l' & pend' & Hsi' & Hl).
  match goal with |- ∃ _ _ _, winv ?s' _ _ _ => set (s1 := s') end.
  assert (p_sys s1 = Sys (set_bot (p_q s) (b + 1)) OIdle ((λ pt, p_t pt.1) <$> w_th s) (add_event (w_log s) (Some (EPop it)))) as Hps.
  { unfold p_sys, p_q, p_bot. cbn. rewrite last_snoc. done. }
  rewrite <-Hps in Hsi'. pose proof (s_len _ _ _ _ Hsi') as Hlen'.
  assert (p_end s1 = b + 1) as Hpe' by (unfold p_end, p_q, p_bot; cbn; by rewrite last_snoc).
  change (p_top s1) with (p_top s) in Hlen'.
  assert (l' = l) as ->.
  { destruct Hl as [->|[(y & [=] & _)|(y & -> & _)]]; [done|]. rewrite app_length in Hlen. cbn in Hlen. lia. }
  exists h', l, pend'. destruct Hb as (_ & _ & _ & _ & _ & _ & _ & _ & _ & _ & Hcap & _).
  apply (winv_bot s h l pend (b + 1) WIdle (w_log s ++ [EPop it]) h' l pend' Hi Hsi'); [apply Hs|done|done|change (b + 1 <= p_end s1); lia|change (p_end s <= p_end s1); lia|change (p_end s1 - o_top s <= cur_cap s); lia|done].
Qed.
End steps.
