(** Every step of the owner keeps the invariant of the work-stealing queue with its memory orders. *)
From Verif Require Import Base WeakMem WSQueue WSQueueProofs WeakQueue WeakQueueProofs WeakQueueSteps.
Ltac Zify.zify_post_hook ::= Z.div_mod_to_equations.
Local Open Scope Z_scope.

Section steps.
Context {A : Type}.
Variables array_store array_load : order.
Notation item := (A * gset ev)%type.
Notation wowner := (wowner (A:=A) array_store).
Notation sync_array := (sync_array (A:=A) array_store array_load).
Implicit Types (s : wsys A) (l : list item) (x : item).

(** Line 63. *)
Lemma step_WPushA s h l pend n s' x b :
  winv s h l pend → w_opc s = WPushA x b → wowner n s = Some s' → ∃ h' l' pend', winv s' h' l' pend'.
Proof.
  intros Hi Ho. unfold WeakQueue.wowner. rewrite Ho.
  destruct (load _ _ _ _ _) as [[t t']|] eqn:Hl; [|done]. cbn. intros [= <-]. exists h, l, pend.
  pose proof Hi as (Hsi & Hb & Hoo & _). apply load_spec in Hl as (m & Hm & -> & Hle & Hrel & Hc & Hca & Hat & _).
  destruct (top_val _ _ _ Hb Hm) as [Hv Hvt]. rewrite Hv.
  assert (o_top s <= Z.of_nat n) as Hot by (unfold o_top; lia).
  destruct (s_cur _ _ _ _ Hsi) as (ar & Har & Hcc & _ & _ & Hoi). rewrite Ho in Hoi. destruct Hoi as [Hbb ->].
  unfold owner_ok in Hoo. rewrite Ho in Hoo.
  assert (p_end s = b) as Hpe by (unfold p_end; rewrite Ho; cbn; done).
  eapply winv_load; [exact Hi| |unfold p_end; by rewrite Ho|done|done|auto|].
  - destruct Hsi as (ca & Hq & Hoi & Hr). unfold p_sys in *. cbn in *. rewrite Ho in Hoi, Hq, Hr. cbn in Hoi.
    exists ca. cbn. split; [exact Hq|]. split; [|exact Hr]. destruct Hb as (_ & _ & _ & _ & _ & _ & _ & _ & _ & _ & Hcap & _).
    pose proof Hq as (Hcur & _). cbn in Hcur. rewrite list_lookup_fmap, Har in Hcur. injection Hcur as <-. cbn.
    split; [exact Hbb|]. split; [exact Hvt|]. split; [lia|done].
  - unfold owner_ok. cbn. split; [etrans; [exact Hoo|by apply ev_mono]|].
    pose proof (ts_mono _ _ LTop Hat) as Ht. rewrite ts_at_same in Ht. unfold o_top. cbn -[ts]. lia.
Qed.

(** Line 102. *)
Lemma step_WPopS s h l pend n s' b :
  winv s h l pend → w_opc s = WPopS b → wowner n s = Some s' → ∃ h' l' pend', winv s' h' l' pend'.
Proof.
  intros Hi Ho. unfold WeakQueue.wowner. rewrite Ho.
  destruct (load _ _ _ _ _) as [[a t']|] eqn:Hl; [|done]. cbn. intros [= <-]. exists h, l, pend.
  pose proof Hi as (Hsi & Hb & _). pose proof (own_arr _ _ _ _ _ Hb Hl) as ->.
  apply load_spec in Hl as (m & Hm & _ & Hle & Hrel & Hc & Hca & _).
  eapply winv_load; [exact Hi| |unfold p_end; by rewrite Ho|done|done|auto|done].
  unfold p_sys in *. rewrite Ho in Hsi. exact Hsi.
Qed.

(** Line 74. *)
Lemma step_WPushD s h l pend n s' x b :
  winv s h l pend → w_opc s = WPushD x b → wowner n s = Some s' → ∃ h' l' pend', winv s' h' l' pend'.
Proof.
  intros Hi Ho. unfold WeakQueue.wowner. rewrite Ho. cbn. intros [= <-]. exists h, l, pend.
  pose proof Hi as (Hsi & Hb & Hoo & _). unfold owner_ok in Hoo. rewrite Ho in Hoo. destruct Hoo as [Hx Hcap].
  destruct (s_cur _ _ _ _ Hsi) as (ar & Har & Hcc & _ & _ & Hoi). rewrite Ho in Hoi. destruct Hoi as (_ & _ & Hp & _).
  rewrite arr_pop_proj in Hp.
  pose proof Hb as (_ & _ & _ & _ & _ & _ & Hva & Hrc & Hk & _).
  eapply winv_owner; [exact Hi| |unfold p_end; by rewrite Ho|exact Hrc|apply vle_refl|apply vle_refl|exact Hva|].
  - unfold p_sys in *. rewrite Ho in Hsi. exact Hsi.
  - unfold owner_ok. cbn [set_owner w_opc]. split; [|done]. by apply (knows_cov s (t_cur (w_to s)) ar b x).
Qed.

(** The store of an element. *)
Lemma cell_push (a : nat) (i : Z) x (r : warr A) (t : qtview) (j : Z) :
  cell (wa_push a i x r t).1 j =
  if decide (j = slot r i) then cell r j ++ [Msg (Some x) (vjoin (t_rel t) (vat (LCell a j) (length (cell r j))))] else cell r j.
Proof.
  unfold cell, wa_push. cbn. case_decide as Hd.
  - subst j. by rewrite lookup_insert.
  - by rewrite lookup_insert_ne.
Qed.
Lemma cell_ne (r : warr A) (j : Z) : cell (A:=A) r j = [] → wa_cells r !! j = Some [].
Proof. unfold cell. destruct (wa_cells r !! j); cbn; [by intros ->|done]. Qed.
Lemma p_arr_push (a : nat) (i : Z) x (r : warr A) (t : qtview) : p_arr (wa_push a i x r t).1 = arr_push (p_arr r) i x.
Proof.
  unfold p_arr, wa_push, arr_push. cbn. f_equal. rewrite (omap_insert_Some _ _ _ _ x); [done|].
  by rewrite last_snoc.
Qed.
Lemma wa_push_cur (a : nat) (i : Z) x (r : warr A) (t : qtview) : vle (t_cur t) (t_cur (wa_push a i x r t).2).
Proof. apply vle_join_l. Qed.

Lemma alter_insert {B} (f : B → B) (ts : list B) i y : ts !! i = Some y → alter f i ts = <[i := f y]> ts.
Proof. revert i. induction ts as [|z ts IH]; intros [|i]; cbn; [done|done|by intros [= ->]|]. intros Hi. f_equal. by apply IH. Qed.

(** Line 73. *)
Lemma step_WPushC s h l pend n s' x b a :
  winv s h l pend → w_opc s = WPushC x b a → wowner n s = Some s' → ∃ h' l' pend', winv s' h' l' pend'.
Proof.
  intros Hi Ho. unfold WeakQueue.wowner. rewrite Ho. pose proof Hi as (Hsi & Hb & Hoo & Ht & Hs).
  unfold owner_ok in Hoo. rewrite Ho in Hoo. destruct Hoo as [Hx Hcap].
  destruct (s_cur _ _ _ _ Hsi) as (ar & Har & Hcc & Hp2 & Hq & Hoi). rewrite Ho in Hoi, Hq.
  destruct Hoi as (Hbb & -> & Hbc & ->). cbn [p_q q_bot q_cur q_top] in Hbb, Hbc, Har |- *. rewrite Har. cbn [mbind option_bind].
  cbv zeta. intros Heq. apply (inj Some) in Heq. subst s'.
  assert (EvArray (p_cur s) ∈ v_ev (t_cur (w_to s))) as Hev.
  { destruct Hb as (_ & _ & _ & _ & _ & _ & _ & _ & (_ & _ & Hk) & _). by destruct (Hk _ _ Har). }
  rewrite use_known by done. set (c := wa_push (p_cur s) b x ar (w_to s)).
  match goal with |- ∃ _ _ _, winv ?s' _ _ _ => set (s1 := s') end.
  pose proof (pow2Z_pos _ Hp2) as Hpos.
  assert (∀ k y, l !! k = Some y → slot ar (p_top s + Z.of_nat k) ≠ slot ar b) as Hslot.
  { intros k y Hk E. apply lookup_lt_Some in Hk. destruct Hq as (_ & _ & Hlen & _). cbn in Hlen.
    unfold slot in E. rewrite !mask_mod in E by done. apply mod_close_inj in E; [lia|done|]. cbn in Hbc. lia. }
  assert (∀ w a' k y, l !! k = Some y → fnd s w a' (p_top s + Z.of_nat k) y → fnd s1 w a' (p_top s + Z.of_nat k) y) as Hf.
  { intros w a' k y Hk (ar' & Ha & Hv & Hlast). unfold fnd. cbn [s1 set_owner set_warrs w_arrs].
    destruct (decide (p_cur s = a')) as [<-|Hne].
    - assert (ar' = ar) as -> by congruence. exists c.1. rewrite list_lookup_insert by (by eapply lookup_lt_Some). split; [done|].
      unfold cell_val. change (slot c.1 ?i) with (slot ar i). unfold c. rewrite !cell_push.
      rewrite !decide_False by (by eapply Hslot). done.
    - exists ar'. rewrite list_lookup_insert_ne by done. done. }
  assert (∀ w k y, l !! k = Some y → cov s w (p_top s + Z.of_nat k) y → cov s1 w (p_top s + Z.of_nat k) y) as Hcv.
  { intros w k y Hk. apply cov_keep; [intros; by eapply Hf|]. by left. }
  assert (vle (t_cur (w_to s)) (t_cur c.2)) as Hct by apply vle_join_l.
  unfold p_sys in Hsi. rewrite Ho in Hsi. cbn [p_o] in Hsi.
  destruct (owner_step_inv _ _ _ _ _ _ _ _ _ _ Hsi eq_refl) as (h' & l' & pend' & Hsi' & Hl).
  assert (p_sys s1 = Sys (Wsq (p_top s) (p_bot s) (alter (λ a, arr_push a b x) (p_cur s) (p_arr <$> w_arrs s)) (p_cur s))
            (OPushD x b) ((λ pt, p_t pt.1) <$> w_th s) (w_log s)) as Hps.
  { unfold p_sys, p_q. cbn [s1 set_owner set_warrs w_arrs w_opc w_th w_log p_o]. f_equal. f_equal. rewrite list_fmap_insert. unfold c. rewrite p_arr_push.
    erewrite alter_insert; [done|]. by rewrite list_lookup_fmap, Har. }
  cbn [add_event] in Hsi'. cbn [p_q q_top q_bot q_arrs q_cur] in Hsi'. rewrite <-Hps in Hsi'.
  pose proof (s_len _ _ _ _ Hsi') as Hlen'. destruct Hq as (_ & _ & Hlen & _). cbn in Hlen.
  assert (p_end s = b) as Hpe by (unfold p_end; rewrite Ho; cbn; done).
  assert (p_end s1 = b) as Hpe' by (unfold p_end; cbn; done).
  assert (l' = l) as ->.
  { destruct Hl as [->|[(y & [=] & _)|(y & -> & _)]]; [done|]. change (p_top s1) with (p_top s) in Hlen'. rewrite app_length in Hlen. cbn in Hlen. lia. }
  exists h', l, pend'.
  assert (o_top s <= o_top s1) as Hot by (unfold o_top; pose proof (ts_mono _ _ LTop Hct); cbn -[ts] in *; lia).
  assert (cur_cap s1 = cur_cap s) as Hcc'.
  { unfold cur_cap. change (p_cur s1) with (p_cur s). cbn [s1 set_owner set_warrs w_arrs].
    rewrite list_lookup_insert by (by eapply lookup_lt_Some). by rewrite Har. }
  split; [done|]. split; [|split; [|split]].
  - destruct Hb as (H1 & H2 & H3 & H4 & H5 & H5' & H6 & H7 & H8 & H9 & H10 & H11).
    unfold basic_ok. change (w_race s1) with (w_race s). do 4 (split; [done|]).
    split. { intros j m Hj. cbn [s1 set_owner set_warrs w_arrs]. rewrite insert_length. by apply (H5 j). }
    split; [done|]. split; [apply vjoin_mono; [done|apply vle_refl]|]. split; [by eapply vle_trans|].
    split; [|split; [|split; [lia|done]]].
    + destruct H8 as (K1 & K2 & K3). pose proof (ts_mono _ _ LBot Hct). pose proof (ts_mono _ _ LArr Hct).
      split; [cbn -[ts c] in *; lia|]. split; [cbn -[ts c] in *; lia|]. intros a' ar' Ha'.
      cbn [s1 set_owner set_warrs w_arrs w_to] in *.
      destruct (decide (p_cur s = a')) as [<-|Hne].
      * rewrite list_lookup_insert in Ha' by (by eapply lookup_lt_Some). apply (inj Some) in Ha' as <-.
        split; [by eapply ev_mono|]. intros i. rewrite (cell_push (p_cur s) b x ar (w_to s) i : cell c.1 i = _). case_decide as Hd.
        -- rewrite app_length. cbn [length]. unfold c. cbn -[ts learn vat cell slot]. cbn [learn t_cur]. subst i. rewrite ts_join, ts_at_same. lia.
        -- destruct (K3 _ _ Har) as [_ K4]. specialize (K4 i). pose proof (ts_mono _ _ (LCell (p_cur s) i) Hct). lia.
      * rewrite list_lookup_insert_ne in Ha' by done. destruct (K3 _ _ Ha') as [K5 K4]. split; [by eapply ev_mono|].
        intros i. specialize (K4 i). pose proof (ts_mono _ _ (LCell a' i) Hct). lia.
    + unfold p_top, sc_top in *. cbn in *. lia.
  - unfold owner_ok. cbn [s1 set_owner w_opc]. split; [etrans; [exact Hx|by apply ev_mono]|]. change (b - o_top s1 <= cur_cap s1 - 1). lia.
  - eapply Forall_impl; [exact Ht|]. intros pt.
    apply thief_keep; [done|unfold sc_top; cbn; lia|cbn; by rewrite insert_length| |by left].
    intros y Hy. apply head_lookup in Hy as Hy0. split; [done|].
    specialize (Hcv) as Hcv'. split.
    + intros w a'. specialize (Hf w a' 0%nat y Hy0). by rewrite Z.add_0_r in Hf.
    + intros w. specialize (Hcv w 0%nat y Hy0). by rewrite Z.add_0_r in Hcv.
  - destruct Hs as [Hs1 Hs2]. split.
    + intros k y Hk. apply Hcv; [done|]. by apply Hs1.
    + intros j m Hj Hsc. destruct (Hs2 j m Hj Hsc) as [Hm1 Hm2]. rewrite Hpe', <-Hpe. split; [done|].
      intros k y Hk Hlt. apply Hcv; [done|]. by apply Hm2.
Qed.

(** Lines 162–170. *)
Lemma wcopy_spec (n : nat) (i : Z) (old : warr A) (a : nat) (r : warr A) (t : qtview) :
  (∀ j : Z, (pred (length (cell r j)) <= ts (t_cur t) (LCell a j))%nat) → vle (t_cur t) (t_acq t) →
  p_arr (wcopy n i old a r t).1 = copy_loop n i (p_arr old) (p_arr r) ∧
  t_rel (wcopy n i old a r t).2 = t_rel t ∧
  vle (t_cur t) (t_cur (wcopy n i old a r t).2) ∧
  vle (t_cur (wcopy n i old a r t).2) (t_acq (wcopy n i old a r t).2) ∧
  (∀ j : Z, (pred (length (cell (wcopy n i old a r t).1 j)) <= ts (t_cur (wcopy n i old a r t).2) (LCell a j))%nat).
Proof.
  revert i r t. induction n as [|n IH]; intros i r t Hk Hca; cbn [wcopy copy_loop].
  - split; [done|]. split; [done|]. split; [apply vle_refl|]. done.
  - rewrite arr_pop_proj. destruct (cell_val old i) as [x|]; [|by apply IH].
    destruct (IH (i + 1) (wa_push a i x r t).1 (wa_push a i x r t).2) as (H1 & H2 & H3 & H4 & H5).
    + intros j. pose proof (ts_mono _ _ (LCell a j) (wa_push_cur a i x r t)) as Hm. rewrite cell_push. case_decide as Hd.
      * rewrite app_length. cbn [length]. subst j. cbn -[ts cell slot vat vjoin]. rewrite ts_join, ts_at_same. lia.
      * specialize (Hk j). lia.
    + apply vjoin_mono; [done|apply vle_refl].
    + split; [by rewrite H1, p_arr_push|]. split; [by rewrite H2|]. split; [|done].
      eapply vle_trans; [apply (wa_push_cur a i x r t)|exact H3].
Qed.

(** Lines 64–71. *)
Lemma step_WPushB s h l pend n s' x b top :
  winv s h l pend → w_opc s = WPushB x b top → wowner n s = Some s' → sync_array s' →
  ∃ h' l' pend', winv s' h' l' pend'.
Proof.
  intros Hi Ho. unfold WeakQueue.wowner. rewrite Ho. pose proof Hi as (Hsi & Hb & Hoo & Ht & Hs).
  destruct (load _ _ _ _ _) as [[a t']|] eqn:Hl; [|done]. cbn [mbind option_bind fst snd].
  pose proof (own_arr _ _ _ _ _ Hb Hl) as ->.
  apply load_spec in Hl as (m & Hm & _ & Hle & Hrel & Hc & Hca & _).
  destruct (s_cur _ _ _ _ Hsi) as (ar & Har & Hcc & Hp2 & Hq & Hoi). rewrite Har. cbn [mbind option_bind].
  rewrite Ho in Hoi, Hq. destruct Hoi as (Hbb & Htt & Hbt & ->). cbn [p_q q_bot q_top] in Hbb, Htt, Hbt. cbn [p_arr a_cap] in Hbt.
  unfold owner_ok in Hoo. rewrite Ho in Hoo. destruct Hoo as [Hx Hto].
  assert (p_end s = b) as Hpe by (unfold p_end; rewrite Ho; cbn; done).
  assert (EvArray (p_cur s) ∈ v_ev (t_cur (w_to s))) as Hev.
  { destruct Hb as (_ & _ & _ & _ & _ & _ & _ & _ & (_ & _ & Hk) & _). by destruct (Hk _ _ Har). }
  cbv zeta. rewrite use_known by (by eapply ev_mono).
  case_bool_decide as Hg.
  - (* grow *)
    pose proof Hb as (H1 & H2 & H3 & H4 & H5 & H5' & H6 & H7 & H8 & H9 & H10 & H11). specialize (Hca H6).
    set (na := length (w_arrs s)).
    destruct (wcopy_spec (Z.to_nat (b - top)) top ar na (WArr (2 * wa_cap ar) ∅) (learn (vev (EvArray na)) t'))
      as (C1 & C2 & C3 & C4 & C5).
    { intros j. unfold cell. cbn [wa_cells]. rewrite lookup_empty. cbn [default length pred]. lia. }
    { apply vjoin_mono; [done|apply vle_refl]. }
    set (c := wcopy _ _ _ _ _ _) in *. cbn [store fst snd]. intros Heq. apply (inj Some) in Heq. intros Hsync.
    assert (releases array_store = true) as Hrs.
    { destruct Hsync as [[? _]|Hl1]; [done|]. subst s'. cbn in Hl1. rewrite app_length in Hl1. cbn in Hl1.
      destruct (w_arr s); [done|cbn in Hl1; lia]. }
    rewrite Hrs in Heq. subst s'. clear Hsync.
    match goal with |- ∃ _ _ _, winv ?s' _ _ _ => set (s1 := s') end.
    assert (vle (t_cur (w_to s)) (t_cur c.2)) as Hcc2.
    { eapply vle_trans; [exact Hc|]. eapply vle_trans; [apply vle_join_l|exact C3]. }
    assert (vle (t_cur (w_to s)) (t_cur (w_to s1))) as Hct.
    { eapply vle_trans; [exact Hcc2|apply vle_join_l]. }
    assert (EvArray na ∈ v_ev (t_cur c.2)) as Hna.
    { eapply ev_mono; [exact C3|]. cbn. set_solver. }
    pose proof (pow2Z_pos _ Hp2) as Hpos.
    destruct (grow_spec (p_arr ar) b top Hp2 Hbt) as [Hgc Hgp].
    assert (p_arr c.1 = arr_grow (p_arr ar) b top) as Hgr.
    { rewrite C1. unfold arr_grow. unfold p_arr at 2. cbn. by rewrite omap_empty. }
    pose proof Hq as (_ & _ & Hlen & _ & Hel). cbn in Hlen.
    assert (∀ w a' i y, fnd s w a' i y → fnd s1 w a' i y) as Hf.
    { intros w a' i y (ar' & Ha & Hv). exists ar'. split; [|done]. cbn.
      by rewrite lookup_app_l by (by eapply lookup_lt_Some). }
    assert (∀ w k y, l !! k = Some y → cov s w (p_top s + Z.of_nat k) y → cov s1 w (p_top s + Z.of_nat k) y) as Hcv.
    { intros w k y Hk. apply cov_keep; [intros; by apply Hf|]. intros j m' Hj. cbn in Hj.
      apply lookup_app_Some in Hj as [Hj|[Hge Hj]]; [by left|]. right.
      apply list_lookup_singleton_Some in Hj as [_ <-]. cbn [m_val m_view]. intros w'. exists c.1.
      split; [cbn; by rewrite lookup_app_r, Nat.sub_diag by lia|].
      split.
      - rewrite <-arr_pop_proj, Hgr. apply Hgp; [|by apply (Hel k)]. apply lookup_lt_Some in Hk. lia.
      - rewrite !ts_join. specialize (C5 (slot c.1 (p_top s + Z.of_nat k))). lia. }
    assert (p_sys s1 = Sys (Wsq (p_top s) (p_bot s) ((p_arr <$> w_arrs s) ++ [arr_grow (p_arr ar) b top]) (length (p_arr <$> w_arrs s)))
            (OPushC x b (length (p_arr <$> w_arrs s))) ((λ pt, p_t pt.1) <$> w_th s) (w_log s)) as Hps.
    { unfold p_sys, p_q. cbn [s1 set_owner set_warr set_warrs w_arrs w_arr w_opc w_th w_log p_o]. rewrite fmap_length.
      f_equal. f_equal; [|unfold p_cur; cbn; by rewrite last_snoc]. rewrite fmap_app. cbn. by rewrite Hgr. }
    unfold p_sys in Hsi. rewrite Ho in Hsi. cbn [p_o] in Hsi.
    assert (owner_step (p_q s) (OPushB x b top) = Some (Wsq (p_top s) (p_bot s) ((p_arr <$> w_arrs s) ++ [arr_grow (p_arr ar) b top])
       (length (p_arr <$> w_arrs s)), OPushC x b (length (p_arr <$> w_arrs s)), None)) as Hstep.
    { cbn. rewrite list_lookup_fmap, Har. cbn. by rewrite bool_decide_eq_true_2 by done. }
    destruct (owner_step_inv _ _ _ _ _ _ _ _ _ _ Hsi Hstep) as (h' & l' & pend' & Hsi' & Hl).
    cbn [add_event] in Hsi'. rewrite <-Hps in Hsi'.
    pose proof (s_len _ _ _ _ Hsi') as Hlen'. change (p_top s1) with (p_top s) in Hlen'.
    assert (p_end s1 = b) as Hpe' by (unfold p_end; cbn; done).
    assert (l' = l) as ->.
    { destruct Hl as [->|[(y & [=] & _)|(y & -> & _)]]; [done|]. rewrite app_length in Hlen. cbn in Hlen. lia. }
    exists h', l, pend'.
    assert (o_top s <= o_top s1) as Hot by (unfold o_top; pose proof (ts_mono _ _ LTop Hct); cbn -[ts] in *; lia).
    assert (cur_cap s1 = 2 * wa_cap ar) as Hcc'.
    { unfold cur_cap, p_cur. cbn [s1 set_owner set_warr set_warrs w_arr w_arrs]. rewrite last_snoc. cbn.
      rewrite lookup_app_r, Nat.sub_diag by lia. cbn. change (a_cap (p_arr c.1) = 2 * a_cap (p_arr ar)). by rewrite Hgr. }
    split; [done|]. split; [|split; [|split]].
    + unfold basic_ok. change (w_race s1) with (w_race s). do 2 (split; [done|]).
      split; [cbn; by destruct (w_arr s)|]. split; [done|].
      split.
      { intros j m' Hj. cbn in Hj |- *. rewrite app_length. cbn [length].
        apply lookup_app_Some in Hj as [Hj|[Hge Hj]]; [destruct (H5 j m' Hj); split; [lia|done]|].
        apply list_lookup_singleton_Some in Hj as [_ <-]. cbn [m_val m_view]. split; [lia|]. right. rewrite ev_join. set_solver. }
      split; [cbn; rewrite lookup_app_l; [done|by eapply lookup_lt_Some]|].
      split; [apply vjoin_mono; [done|apply vle_refl]|].
      split.
      { cbn [s1 set_owner w_to learn t_rel t_cur]. rewrite C2. cbn [learn t_rel]. rewrite Hrel.
        eapply vle_trans; [exact H7|exact Hct]. }
      split; [|split; [|split; [lia|done]]].
      * destruct H8 as (K1 & K2 & K3). split; [pose proof (ts_mono _ _ LBot Hct); cbn -[ts] in *; lia|].
        split.
        { cbn [s1 set_owner set_warr set_warrs w_arr w_to learn t_cur]. rewrite app_length. cbn [length]. rewrite ts_join, ts_at_same. lia. }
        intros a' ar' Ha'. cbn [s1 set_owner set_warr set_warrs w_arrs] in Ha'.
        apply lookup_app_Some in Ha' as [Ha'|[Hge Ha']].
        -- destruct (K3 _ _ Ha') as [K4 K5]. split; [by eapply ev_mono|]. intros i. specialize (K5 i).
           pose proof (ts_mono _ _ (LCell a' i) Hct). lia.
        -- apply list_lookup_singleton_Some in Ha' as [Hz <-]. assert (a' = na) as -> by (subst na; lia).
           split; [cbn; rewrite ?elem_of_union; left; exact Hna|]. intros i.
           cbn [s1 set_owner w_to learn t_cur]. rewrite ts_join. specialize (C5 i). lia.
      * unfold p_top, sc_top in *. cbn -[Z.max] in *. lia.
    + unfold owner_ok. cbn [s1 set_owner w_opc]. split; [etrans; [exact Hx|by apply ev_mono]|]. change (b - o_top s1 <= cur_cap s1 - 1). lia.
    + eapply Forall_impl; [exact Ht|]. intros pt.
      apply thief_keep; [done|unfold sc_top; cbn; lia|cbn; rewrite app_length; lia| |by left].
      intros y Hy. apply head_lookup in Hy as Hy0. split; [done|]. split; [intros w a'; apply Hf|].
      intros w. specialize (Hcv w 0%nat y Hy0). by rewrite Z.add_0_r in Hcv.
    + destruct Hs as [Hs1 Hs2]. split.
      * intros k y Hk. change (t_rel (w_to s1)) with (t_rel c.2). rewrite C2. cbn [learn t_rel]. rewrite Hrel.
        apply Hcv; [done|]. by apply Hs1.
      * intros j m' Hj Hsc. destruct (Hs2 j m' Hj Hsc) as [Hm1 Hm2]. rewrite Hpe', <-Hpe. split; [done|].
        intros k y Hk Hlt. apply Hcv; [done|]. by apply Hm2.
  - intros [= <-] _. exists h, l, [].
    eapply winv_load; [exact Hi| |unfold p_end; by rewrite Ho|done|done|auto|].
    + unfold p_sys in Hsi. rewrite Ho in Hsi. cbn [p_o] in Hsi.
      destruct Hsi as (ca & Hq' & Hoi & Hr). exists ca. cbn in *. split; [exact Hq'|]. split; [|exact Hr].
      pose proof Hq' as (Hcur & _). cbn in Hcur. rewrite list_lookup_fmap, Har in Hcur. injection Hcur as <-. cbn.
      split; [exact Hbb|]. split; [done|]. split; [|done]. cbn. change (p_top (set_owner _ _ _)) with (p_top s). lia.
    + unfold owner_ok. cbn [set_owner w_opc w_to]. split; [etrans; [exact Hx|by apply ev_mono]|].
      pose proof (ts_mono _ _ LTop Hc). unfold cur_cap, o_top, p_cur in *. cbn -[ts] in *. lia.
Qed.

(** Line 104. *)
Lemma step_WPopB s h l pend n s' b a :
  winv s h l pend → w_opc s = WPopB b a → wowner n s = Some s' → ∃ h' l' pend', winv s' h' l' pend'.
Proof.
  intros Hi Ho. unfold WeakQueue.wowner. rewrite Ho. pose proof Hi as (Hsi & Hb & _ & Ht & Hs).
  cbv zeta. intros Heq. apply (inj Some) in Heq. subst s'. exists h, l, pend.
  pose proof Hb as (H1 & H2 & H3 & H4 & H5 & H5' & H6 & H7 & H8 & H9 & H10 & H11).
  set (f := fence_sc (w_sc s) (w_to s)).
  match goal with |- winv ?s' _ _ _ => set (s1 := s') end.
  assert (vle (t_cur (w_to s)) (t_cur f.2)) as Hct by (eapply vle_trans; [exact H6|apply vle_join_l]).
  assert (∀ k, (default 0%nat (w_sc s !! k) <= ts (t_cur f.2) k)%nat) as Hsc.
  { intros k. cbn [f fence_sc snd t_cur]. rewrite ts_join. unfold ts at 2. cbn. lia. }
  assert (sc_top s1 = Z.of_nat (ts (t_cur f.2) LTop)) as Est by reflexivity.
  assert (o_top s1 = Z.of_nat (ts (t_cur f.2) LTop)) as Eot by reflexivity.
  assert (sc_bot s1 = ts (t_cur f.2) LBot) as Esb by reflexivity.
  assert (o_top s <= o_top s1) as Hot by (rewrite Eot; unfold o_top; pose proof (ts_mono _ _ LTop Hct); lia).
  assert (sc_top s <= o_top s1) as Hso by (rewrite Eot; unfold sc_top; specialize (Hsc LTop); lia).
  assert (sc_top s <= sc_top s1) as Hst by lia.
  assert (sc_bot s <= sc_bot s1)%nat as Hsb by (rewrite Esb; unfold sc_bot; specialize (Hsc LBot); lia).
  split; [|split; [|split; [|split]]].
  - unfold p_sys in *. rewrite Ho in Hsi. exact Hsi.
  - unfold basic_ok. change (w_race s1) with (w_race s). do 6 (split; [done|]).
    split; [apply vle_refl|]. split; [apply vle_refl|]. split; [by apply (knows_mono s (t_cur (w_to s)))|].
    split; [change (p_top s1) with (p_top s); lia|]. split; [|done].
    assert (p_end s1 = p_end s) as -> by (unfold p_end; by rewrite Ho). unfold cur_cap, p_cur in *. cbn in *. lia.
  - unfold owner_ok. cbn [s1 set_owner w_opc]. split; [|split].
    + destruct H8 as [K1 _]. change (w_bot s1) with (w_bot s). etrans; [exact K1|]. pose proof (ts_mono _ _ LBot Hct).
      unfold sc_bot. cbn -[ts f] in *. exact H.
    + eapply Forall_impl; [exact Ht|]. intros [p t] (_ & _ & Hp). unfold fenced. cbn [fst snd] in *.
      change (o_top {| w_top := _ |}) with (o_top s1).
      destruct p; try done; right; lia.
    + intros E. change (b <= o_top s1). change (p_top s = b + 1) in E. lia.
  - eapply Forall_impl; [exact Ht|]. intros pt. apply thief_keep; [done|done|done|done|by left].
  - destruct Hs as [Hs1 Hs2]. split.
    + intros k y Hk. apply (cov_mono s (t_rel (w_to s))); [by eapply vle_trans|]. by apply Hs1.
    + assert (p_end s1 = p_end s) as -> by (unfold p_end; by rewrite Ho). intros j m Hj Hle. apply (Hs2 j m Hj). lia.
Qed.

(** Line 105: the owner decides. *)
Lemma step_WPopF s h l pend n s' b a :
  winv s h l pend → w_opc s = WPopF b a → wowner n s = Some s' → ∃ h' l' pend', winv s' h' l' pend'.
Proof.
  intros Hi Ho. unfold WeakQueue.wowner. rewrite Ho. pose proof Hi as (Hsi & Hb & Hoo & Ht & Hs).
  destruct (load _ _ _ _ _) as [[t t']|] eqn:Hl; [|done]. cbn [mbind option_bind fst snd].
  intros Heq. apply (inj Some) in Heq. subst s'.
  apply load_spec in Hl as (m & Hm & -> & Hle & Hrel & Hc & Hca & Hat & _).
  destruct (top_val _ _ _ Hb Hm) as [Hv Hvt]. rewrite Hv. set (t := Z.of_nat n) in *.
  assert (o_top s <= t) as Hot by (unfold o_top, t; lia).
  destruct (s_cur _ _ _ _ Hsi) as (ar & Har & Hcc & Hp2 & Hq & Hoi). rewrite Ho in Hoi, Hq.
  destruct Hoi as (Hbb & Ha & ->). cbn in Hbb, Ha. subst a.
  unfold owner_ok in Hoo. rewrite Ho in Hoo. destruct Hoo as (Hscb & Hfen & Htop1).
  assert (p_end s = b + 1) as Hpe by (unfold p_end; rewrite Ho; cbn; done).
  pose proof (s_len _ _ _ _ Hsi) as Hlen. rewrite Hpe in Hlen.
  set (s1 := set_owner s (WPopC b t (p_cur s)) t').
  assert (owner_ok s1) as Hoo'.
  { unfold owner_ok. cbn [s1 set_owner w_opc]. pose proof (ts_mono _ _ LTop Hat) as Hx. rewrite ts_at_same in Hx.
    unfold o_top, t. cbn -[ts]. lia. }
  pose proof Hsi as Hsi0. unfold p_sys in Hsi0. rewrite Ho in Hsi0. cbn [p_o] in Hsi0.
  destruct Hsi0 as (ca & Hq0 & Hoi0 & Hti & Hd & Hlo & Hls). cbn [s_q s_owner s_thieves s_log] in *.
  pose proof Hq0 as (Hcur0 & _ & Hlen0 & Hcap0 & Hel0). rewrite app_nil_r in Hlo.
  destruct (Z.lt_trichotomy t b) as [Hlt|[Heq|Hgt]].
  - (* the item is the owner's *)
    assert (p_top s <= b) as HTb by (destruct (decide (p_top s = b + 1)) as [E|]; [specialize (Htop1 E); lia|lia]).
    destruct l as [|x l _] using rev_ind; [cbn in *; lia|]. rewrite app_length in Hlen. cbn [length] in Hlen.
    assert (p_end s1 = b) as Hpe' by (unfold p_end; cbn; by rewrite bool_decide_eq_true_2).
    assert (Forall (thief_ok s1 l) (w_th s1)) as Ht'.
    { rewrite Forall_forall in Ht, Hfen. apply Forall_forall. intros pt Hin. specialize (Ht pt Hin). specialize (Hfen pt Hin).
      destruct (decide (p_top s = b)) as [HTe|HTne].
      - (* no thief can have it *)
        destruct pt as [p v]. unfold thief_ok, fenced in *. cbn [fst snd] in *. destruct Ht as (T1 & T2 & T3).
        split; [done|]. split; [done|]. change (p_top s1) with (p_top s). change (sc_top s1) with (sc_top s).
        destruct p as [|tt|tt|tt|tt aa|tt it]; [done|done| | | |].
        + destruct T3 as (T3 & T4 & T5). split; [done|]. split; [done|]. intros E k m' Hk Hlek Hltk. exfalso.
          destruct Hfen as [Hf|Hf]; [|lia].
          change (w_bot s1) with (w_bot s) in Hk.
          assert (m_val m' = p_bot s) as Hmv by (unfold p_bot; rewrite (last_index _ _ _ Hk) by lia; done). lia.
        + destruct T3 as (T3 & T4 & T5). split; [done|]. split; [done|]. intros E. lia.
        + destruct T3 as (T3 & T4 & T5 & T6 & T7). do 4 (split; [done|]). intros E. lia.
        + destruct T3 as (T3 & T4 & T5). split; [done|]. split; [done|]. intros E. lia.
      - revert Ht. apply thief_keep; [done|done|done| |by left]. intros y Hy. split; [|done].
        destruct l; [cbn in Hlen; lia|]. done. }
    exists (h ++ [DPop x]), l, [EPop (Some x)]. split; [|split; [|split; [done|split; [done|]]]].
    + exists ca. unfold p_sys. cbn [s_q s_owner s_thieves s_log]. change (p_q s1) with (p_q s).
      cbn [s1 set_owner w_opc w_th w_log p_o].
      assert (q_inv (p_q s) (OPopC b t (p_cur s)) ca l) as Hqn.
      { unfold q_inv in *. rewrite app_length in *. cbn [length logical_end p_q q_top q_bot] in *. rewrite bool_decide_eq_true_2 by done.
        destruct Hq0 as (Q1 & Q2 & _). split; [done|]. split; [done|]. split; [lia|]. split; [lia|].
        intros k y Hk. apply Hel0. by apply lookup_app_l_Some. }
      split; [done|]. split; [|split; [|split; [by constructor|split]]].
      * cbn [o_inv p_q q_top q_bot q_cur]. split; [done|]. split; [done|]. split; [done|]. split; [|split; lia].
        intros _. exists x. split; [done|]. specialize (Hel0 (length l) x). rewrite lookup_app_r, Nat.sub_diag in Hel0 by lia.
        cbn [p_q q_top] in Hel0. replace b with (p_top s + Z.of_nat (length l)) by lia. by apply Hel0.
      * apply Forall_fmap. eapply Forall_impl; [exact Ht'|]. intros pt Hpt.
        apply (thief_t_inv s1 l ca pt); [exact Hqn|done].
      * rewrite omap_snoc, Hlo. cbn. done.
      * rewrite omap_snoc, Hls. cbn. by rewrite app_nil_r.
    + destruct Hb as (H1 & H2 & H3 & H4 & H5 & H5' & H6 & H7 & H8 & H9 & H10 & H11).
      unfold basic_ok. change (w_race s1) with (w_race s). do 6 (split; [done|]). split; [by apply Hca|].
      cbn [s1 set_owner w_to]. rewrite Hrel. split; [by eapply vle_trans|]. split; [by apply (knows_mono s (t_cur (w_to s)))|].
      pose proof (ts_mono _ _ LTop Hc) as Hx. fold s1. rewrite Hpe'. unfold o_top, cur_cap, sc_top, p_top, p_cur in *. cbn -[ts Z.max] in *.
      split; [lia|]. split; [lia|done].
    + destruct Hs as [Hs1 Hs2]. split.
      * intros k y Hk. cbn [s1 set_owner w_to]. rewrite Hrel. apply (Hs1 k y). by apply lookup_app_l_Some.
      * intros j m' Hj Hsc. destruct (Hs2 j m' Hj Hsc) as [S1 S2]. rewrite Hpe'. change (w_bot s1) with (w_bot s) in Hj.
        assert (m_val m' = p_bot s) as Hmv.
        { unfold p_bot. rewrite (last_index _ _ _ Hj); [done|]. change (sc_bot s1) with (sc_bot s) in Hsc. lia. }
        split; [lia|]. intros k y Hk Hlt'. apply (S2 k y); [by apply lookup_app_l_Some|done].
  - (* the last item: compare-exchange *)
    exists h, l, []. eapply winv_load; [exact Hi| |unfold p_end; rewrite Ho; cbn; by rewrite bool_decide_eq_false_2 by lia|done|done|auto|done].
    exists ca. unfold p_sys. cbn [s_q s_owner s_thieves s_log set_owner w_opc w_th w_log p_o].
    change (p_q (set_owner _ _ _)) with (p_q s). cbn [logical_end] in Hti |- *. rewrite bool_decide_eq_false_2 by lia.
    split; [|split; [|split; [done|split; [done|split; [by rewrite app_nil_r|done]]]]].
    + unfold q_inv in *. cbn [logical_end] in *. rewrite bool_decide_eq_false_2 by lia. done.
    + cbn [o_inv p_q q_top q_bot q_cur]. split; [done|]. split; [done|]. split; [done|]. split; [lia|]. split; [done|lia].
  - (* empty *)
    assert (l = []) as -> by (destruct l; [done|cbn in Hlen; lia]). cbn in Hlen.
    exists (h ++ [DPopEmpty]), [], [EPop None].
    eapply winv_load; [exact Hi| |unfold p_end; rewrite Ho; cbn; by rewrite bool_decide_eq_false_2 by lia|done|done|auto|done].
    exists ca. unfold p_sys. cbn [s_q s_owner s_thieves s_log set_owner w_opc w_th w_log p_o].
    change (p_q (set_owner _ _ _)) with (p_q s). cbn [logical_end] in Hti |- *. rewrite bool_decide_eq_false_2 by lia.
    split; [|split; [|split; [done|split; [by constructor|split]]]].
    + unfold q_inv in *. cbn [logical_end] in *. rewrite bool_decide_eq_false_2 by lia. done.
    + cbn [o_inv p_q q_top q_bot q_cur]. split; [done|]. split; [done|]. split; [done|]. split; [lia|]. split; [lia|]. split; [done|lia].
    + rewrite omap_snoc, Hlo. done.
    + rewrite omap_snoc, Hls. cbn. by rewrite app_nil_r.
Qed.

(** Lines 109–110 and 121. *)
Lemma step_WPopC s h l pend n s' b top a :
  winv s h l pend → w_opc s = WPopC b top a → wowner n s = Some s' → ∃ h' l' pend', winv s' h' l' pend'.
Proof.
  intros Hi Ho. unfold WeakQueue.wowner. rewrite Ho. pose proof Hi as (Hsi & Hb & Hoo & Ht & Hs).
  destruct (s_cur _ _ _ _ Hsi) as (ar & Har & Hcc & Hp2 & Hq & Hoi). rewrite Ho in Hoi, Hq.
  destruct Hoi as (Hbb & Ha & Htt & _). cbn in Hbb, Ha, Htt. subst a.
  unfold owner_ok in Hoo. rewrite Ho in Hoo.
  pose proof (s_len _ _ _ _ Hsi) as Hlen.
  assert (p_end s = if bool_decide (top < b) then b else b + 1) as Hpe by (unfold p_end; rewrite Ho; done).
  pose proof Hsi as Hsi0. unfold p_sys in Hsi0. rewrite Ho in Hsi0. cbn [p_o] in Hsi0.
  destruct (decide (top <= b)) as [Hle|Hle]; [rewrite (bool_decide_eq_true_2 (top <= b)) by done|rewrite (bool_decide_eq_false_2 (top <= b)) by done]; cbn [mbind option_bind].
  - rewrite ?Har. cbn [mbind option_bind].
    destruct (load _ _ _ _ _) as [[it t']|] eqn:Hl; [|done]. cbn [mbind option_bind fst snd].
    assert (EvArray (p_cur s) ∈ v_ev (t_cur (w_to s))) as Hev.
    { destruct Hb as (_ & _ & _ & _ & _ & _ & _ & _ & (_ & _ & Hk) & _). by destruct (Hk _ _ Har). }
    rewrite use_known by done. intros Heq. apply (inj Some) in Heq. subst s'.
    apply load_spec in Hl as (m & Hm & -> & Hn & Hrel & Hc & Hca & _).
    assert (m_val m = cell_val ar b) as Hmv.
    { destruct Hb as (_ & _ & _ & _ & _ & _ & _ & _ & (_ & _ & Hk) & _). destruct (Hk _ _ Har) as [_ Hk']. specialize (Hk' (slot ar b)).
      unfold cell_val. rewrite (last_index _ _ _ Hm) by lia. done. }
    rewrite Hmv.
    assert (owner_step (p_q s) (OPopC b top (p_cur s)) = Some (p_q s, OPopD b top (cell_val ar b), None)) as Hstep.
    { cbn [owner_step p_q q_arrs]. rewrite bool_decide_eq_true_2 by done. rewrite list_lookup_fmap, Har. cbn. by rewrite arr_pop_proj. }
    destruct (owner_step_inv _ _ _ _ _ _ _ _ _ _ Hsi0 Hstep) as (h' & l' & pend' & Hsi' & Hl). cbn [add_event] in Hsi'.
    change (s_inv (p_sys (set_owner s (WPopD b top (cell_val ar b)) t')) h' l' pend') in Hsi'.
    pose proof (s_len _ _ _ _ Hsi') as Hlen'.
    assert (p_end (set_owner s (WPopD b top (cell_val ar b)) t') = p_end s) as Hpe' by (unfold p_end; by rewrite Ho).
    rewrite Hpe' in Hlen'. change (p_top (set_owner _ _ _)) with (p_top s) in Hlen'.
    assert (l' = l) as ->.
    { destruct Hl as [->|[(y & [=] & _)|(y & -> & _)]]; [done|]. rewrite app_length in Hlen. cbn in Hlen. lia. }
    exists h', l, pend'. eapply winv_load; [exact Hi|exact Hsi'|exact Hpe'|done|done|auto|].
    unfold owner_ok. cbn [set_owner w_opc]. pose proof (ts_mono _ _ LTop Hc). unfold o_top in *. cbn -[ts] in *. lia.
  - intros Heq. apply (inj Some) in Heq. subst s'.
    assert (owner_step (p_q s) (OPopC b top (p_cur s)) = Some (p_q s, OPopE b None, None)) as Hstep.
    { cbn [owner_step p_q q_arrs]. by rewrite bool_decide_eq_false_2 by done. }
    destruct (owner_step_inv _ _ _ _ _ _ _ _ _ _ Hsi0 Hstep) as (h' & l' & pend' & Hsi' & Hl). cbn [add_event] in Hsi'.
    change (s_inv (p_sys (set_owner s (WPopE b None) (w_to s))) h' l' pend') in Hsi'.
    pose proof (s_len _ _ _ _ Hsi') as Hlen'.
    assert (p_end (set_owner s (WPopE b None) (w_to s)) = p_end s) as Hpe'.
    { rewrite Hpe. rewrite bool_decide_eq_false_2 by lia. done. }
    rewrite Hpe' in Hlen'. change (p_top (set_owner _ _ _)) with (p_top s) in Hlen'.
    assert (l' = l) as ->.
    { destruct Hl as [->|[(y & [=] & _)|(y & -> & _)]]; [done|]. rewrite app_length in Hlen. cbn in Hlen. lia. }
    exists h', l, pend'. eapply winv_load; [exact Hi|exact Hsi'|exact Hpe'|done|apply vle_refl|done|done].
Qed.

(** A successful compare-exchange on [_top] by the thread with view [t]. *)
Lemma cas_spec {L E} `{Countable L, Countable E} (k : L) (ex de : Z) n (hs : list (msg L E Z)) t ok hs' t' :
  cas k ex de n hs t = Some (ok, hs', t') →
  vle (t_cur t) (t_cur t') ∧ t_rel t' = t_rel t ∧ (vle (t_cur t) (t_acq t) → vle (t_cur t') (t_acq t')) ∧
  vle (t_acq t) (t_acq t') ∧
  ∃ m, hs !! n = Some m ∧ (ts (t_cur t) k <= n)%nat ∧
    if ok then m_val m = ex ∧ S n = length hs ∧ (∃ w, hs' = hs ++ [Msg de w]) ∧ vle (vat k (S n)) (t_cur t')
    else m_val m ≠ ex ∧ hs' = hs.
Proof.
  unfold cas. case_bool_decide as Hn; [done|]. destruct (hs !! n) as [m|] eqn:Hm; [|done]. cbn [mbind option_bind].
  case_bool_decide as He.
  - case_bool_decide as Hl; [|done]. intros [= <- <- <-]. split; [apply vle_join_l|]. split; [done|].
    split; [intros; by apply vjoin_mono; [|apply vle_refl]|]. split; [apply vle_join_l|].
    exists m. split; [done|]. split; [lia|]. split; [done|]. split; [done|]. split; [by eexists|].
    eapply vle_trans; [apply vle_join_r|apply vle_join_r].
  - destruct (load _ _ _ _ _) as [[z tz]|] eqn:Hl; [|done]. cbn [mbind option_bind snd]. intros [= <- <- <-].
    apply load_spec in Hl as (m' & Hm' & -> & Hle & Hrel & Hc & Hca & _ & _ & Haa).
    split; [done|]. split; [done|]. split; [done|]. split; [done|]. exists m. split; [done|]. split; [lia|]. split; [done|]. done.
Qed.

(** Lines 112–118. *)
Lemma step_WPopD s h l pend n s' b top it :
  winv s h l pend → w_opc s = WPopD b top it → wowner n s = Some s' → ∃ h' l' pend', winv s' h' l' pend'.
Proof.
  intros Hi Ho. unfold WeakQueue.wowner. rewrite Ho. pose proof Hi as (Hsi & Hb & Hoo & Ht & Hs).
  destruct (s_cur _ _ _ _ Hsi) as (ar & Har & Hcc & Hp2 & Hq & Hoi). rewrite Ho in Hoi, Hq.
  destruct Hoi as (Hbb & Htt & Hle & _). cbn in Hbb, Htt.
  unfold owner_ok in Hoo. rewrite Ho in Hoo.
  pose proof (s_len _ _ _ _ Hsi) as Hlen.
  assert (p_end s = if bool_decide (top < b) then b else b + 1) as Hpe by (unfold p_end; rewrite Ho; done).
  pose proof Hsi as Hsi0. unfold p_sys in Hsi0. rewrite Ho in Hsi0. cbn [p_o] in Hsi0.
  destruct (decide (top = b)) as [Heq|Heq]; [rewrite (bool_decide_eq_true_2 (top = b)) by done|rewrite (bool_decide_eq_false_2 (top = b)) by done].
  - subst top. rewrite bool_decide_eq_false_2 in Hpe by lia.
    destruct (cas _ _ _ _ _ _) as [[[ok hs'] t']|] eqn:Hcas; [|done]. cbn [mbind option_bind].
    intros Heq. apply (inj Some) in Heq. subst s'.
    destruct (cas_spec _ _ _ _ _ _ _ _ _ Hcas) as (Hc & Hrel & Hca & _ & m & Hm & Hn & Hok).
    destruct (top_val _ _ _ Hb Hm) as [Hv Hvt].
    destruct ok.
    + destruct Hok as (Hmb & Hlast & (w & ->) & Hat). rewrite Hv in Hmb.
      assert (p_top s = b) as HT by (unfold p_top; lia).
      assert (owner_step (p_q s) (OPopD b b it) = Some (set_top (p_q s) (b + 1), OPopE b it, None)) as Hstep.
      { cbn [owner_step p_q q_top]. rewrite bool_decide_eq_true_2 by done. by rewrite bool_decide_eq_true_2 by done. }
      destruct (owner_step_inv _ _ _ _ _ _ _ _ _ _ Hsi0 Hstep) as (h' & l' & pend' & Hsi' & Hl). cbn [add_event] in Hsi'.
      set (s1 := set_owner (set_wtop s (w_top s ++ [Msg (b + 1) w])) (WPopE b it) t').
      assert (p_top s1 = b + 1) as HT1 by (unfold p_top; cbn; rewrite app_length; cbn; lia).
      assert (p_sys s1 = Sys (set_top (p_q s) (b + 1)) (OPopE b it) ((λ pt, p_t pt.1) <$> w_th s) (w_log s)) as Hps.
      { unfold p_sys, p_q, set_top. rewrite HT1. done. }
      rewrite <-Hps in Hsi'. pose proof (s_len _ _ _ _ Hsi') as Hlen'.
      assert (p_end s1 = b + 1) as Hpe' by done.
      assert (l' = []) as -> by (destruct l'; [done|cbn in Hlen'; lia]).
      exists h', [], pend'. split; [done|].
      assert (o_top s <= o_top s1) as Hot by (unfold o_top; pose proof (ts_mono _ _ LTop Hc); cbn -[ts] in *; lia).
      assert (b + 1 <= o_top s1) as Hot1.
      { pose proof (ts_mono _ _ LTop Hat) as Hx. rewrite ts_at_same in Hx. unfold o_top. cbn -[ts] in *. lia. }
      split; [|split; [done|split]].
      * destruct Hb as (H1 & H2 & H3 & H4 & H5 & H5' & H6 & H7 & H8 & H9 & H10 & H11).
        unfold basic_ok. change (w_race s1) with (w_race s). split; [cbn; by destruct (w_top s)|]. do 2 (split; [done|]).
        split.
        { intros j m' Hj. cbn in Hj. apply lookup_app_Some in Hj as [Hj|[Hge Hj]]; [by apply H4|].
          apply list_lookup_singleton_Some in Hj as [Hz <-]. cbn. lia. }
        do 2 (split; [done|]). split; [by apply Hca|]. cbn [s1 set_owner w_to]. rewrite Hrel. split; [by eapply vle_trans|].
        split; [by apply (knows_mono s (t_cur (w_to s)))|]. fold s1. split; [lia|].
        split; [|done]. rewrite Hpe'. change (cur_cap s1) with (cur_cap s). lia.
      * eapply Forall_impl; [exact Ht|]. intros pt. apply thief_top; [lia|done|done].
      * split; [done|]. intros j m' Hj Hsc. destruct Hs as [_ S2]. destruct (S2 j m' Hj Hsc) as [S3 _]. split; [lia|done].
    + destruct Hok as [Hmb ->]. rewrite Hv in Hmb.
      assert (p_top s ≠ b) as HT by (unfold o_top in *; lia).
      assert (owner_step (p_q s) (OPopD b b it) = Some (p_q s, OPopE b None, None)) as Hstep.
      { cbn [owner_step p_q q_top]. rewrite bool_decide_eq_true_2 by done. by rewrite bool_decide_eq_false_2 by done. }
      destruct (owner_step_inv _ _ _ _ _ _ _ _ _ _ Hsi0 Hstep) as (h' & l' & pend' & Hsi' & Hl). cbn [add_event] in Hsi'.
      replace (set_wtop s (w_top s)) with s by (by destruct s).
      change (s_inv (p_sys (set_owner s (WPopE b None) t')) h' l' pend') in Hsi'.
      pose proof (s_len _ _ _ _ Hsi') as Hlen'.
      assert (p_end (set_owner s (WPopE b None) t') = p_end s) as Hpe' by (rewrite Hpe; done).
      rewrite Hpe' in Hlen'. change (p_top (set_owner _ _ _)) with (p_top s) in Hlen'.
      assert (l' = l) as ->.
      { destruct Hl as [->|[(y & [=] & _)|(y & -> & _)]]; [done|]. rewrite app_length in Hlen. cbn in Hlen. lia. }
      exists h', l, pend'. eapply winv_load; [exact Hi|exact Hsi'|exact Hpe'|done|done|done|done].
  - rewrite bool_decide_eq_true_2 in Hpe by lia. intros Heq'. apply (inj Some) in Heq'. subst s'.
    assert (owner_step (p_q s) (OPopD b top it) = Some (p_q s, OIdle, Some (EPop it))) as Hstep.
    { cbn [owner_step p_q q_top]. by rewrite bool_decide_eq_false_2 by done. }
    destruct (owner_step_inv _ _ _ _ _ _ _ _ _ _ Hsi0 Hstep) as (h' & l' & pend' & Hsi' & Hl).
    set (s1 := log_ev (set_owner s WIdle (w_to s)) (EPop it)).
    change (s_inv (p_sys s1) h' l' pend') in Hsi'.
    pose proof (s_len _ _ _ _ Hsi') as Hlen'.
    assert (p_end s1 = p_end s) as Hpe' by (rewrite Hpe; done).
    rewrite Hpe' in Hlen'. change (p_top s1) with (p_top s) in Hlen'.
    assert (l' = l) as ->.
    { destruct Hl as [->|[(y & [=] & _)|(y & -> & _)]]; [done|]. rewrite app_length in Hlen. cbn in Hlen. lia. }
    exists h', l, pend'. split; [done|]. split; [|split; [done|split; [exact Ht|]]].
    + destruct Hb as (H1 & H2 & H3 & H4 & H5 & H5' & H6 & H7 & H8 & H9 & H10 & H11).
      unfold basic_ok. rewrite Hpe'. done.
    + destruct Hs as [S1 S2]. split; [exact S1|]. rewrite Hpe'. exact S2.
Qed.
End steps.
