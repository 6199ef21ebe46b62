(** The steps of a thief keep the invariant of the work-stealing queue with its memory orders, and so does
    every step. *)
From Verif Require Import Base WeakMem WSQueue WSQueueProofs WeakQueue WeakQueueProofs WeakQueueSteps WeakQueueOwner.
Ltac Zify.zify_post_hook ::= Z.div_mod_to_equations.
Local Open Scope Z_scope.

Section steps.
Context {A : Type}.
Variables array_store array_load : order.
Notation item := (A * gset ev)%type.
Notation wstep := (wstep (A:=A) array_store array_load).
Notation wowner := (wowner (A:=A) array_store).
Notation wthief := (wthief (A:=A) array_load).
Notation sync_array := (sync_array (A:=A) array_store array_load).
Implicit Types (s : wsys A) (l : list item) (x : item).

(** Thief [i] changes only its position and learns something, and may return nullptr. *)
Lemma winv_thief s (h : list (dop item)) l (pend : list (event item)) (i : nat) (p' : wtpc A) (t' : qtview) (sc' : gmap loc nat) (log' : list (event item)) :
  let s' := WSys (w_top s) (w_bot s) (w_arr s) (w_arrs s) sc' (w_opc s) (w_to s) (<[i := (p', t')]> (w_th s)) log' (w_race s) in
  winv s h l pend → (log' = w_log s ∨ log' = w_log s ++ [ESteal None]) →
  (∀ k : loc, (default 0%nat (w_sc s !! k) <= default 0%nat (sc' !! k))%nat) →
  thief_ok s' l (p', t') → (∀ b a, w_opc s = WPopF b a → fenced s' b (p', t')) → winv s' h l pend.
Proof.
  intros s' (Hsi & Hb & Hoo & Ht & Hs) Hlog Hsc Hok Hf.
  assert (sc_top s <= sc_top s') as Hst by (pose proof (Hsc LTop); unfold sc_top; cbn; lia).
  assert (sc_bot s <= sc_bot s')%nat as Hsb by (pose proof (Hsc LBot); unfold sc_bot; cbn; lia).
  split; [|split; [|split; [|split]]].
  - destruct Hsi as (ca & Hq & Ho & Hti & Hd & Hlo & Hls). exists ca. unfold p_sys in *. cbn [s_q s_owner s_thieves s_log w_opc w_th w_log] in *.
    split; [exact Hq|]. split; [exact Ho|]. split; [|split; [done|]].
    + change (w_th s') with (<[i := (p', t')]> (w_th s)). rewrite list_fmap_insert. apply Forall_insert; [exact Hti|]. cbn [fst].
      apply (thief_t_inv s' l ca (p', t')); [exact Hq|exact Hok].
    + destruct Hlog as [->| ->]; [done|]. change (w_log s') with (w_log s ++ [ESteal None]). rewrite !omap_snoc. cbn. by rewrite !app_nil_r.
  - destruct Hb as (H1 & H2 & H3 & H4 & H5 & H5' & H6 & H7 & H8 & H9 & H10 & H11).
    unfold basic_ok. do 9 (split; [done|]). split; [|done].
    change (p_top s') with (p_top s). change (o_top s') with (o_top s). lia.
  - unfold owner_ok in *. change (w_opc s') with (w_opc s). destruct (w_opc s) as [| | | | | | | | |b a| | |] eqn:Ho; try exact Hoo.
    destruct Hoo as (O1 & O2 & O3). split; [change (w_bot s') with (w_bot s); lia|]. split; [|exact O3].
    apply Forall_insert; [exact O2|]. by apply (Hf b a).
  - apply Forall_insert; [|exact Hok]. eapply Forall_impl; [exact Ht|]. intros pt.
    apply thief_keep; [done|done|done| |by intros; left].
    intros x Hx. split; [done|]. split; intros; done.
  - destruct Hs as [S1 S2]. split; [exact S1|]. intros n m Hn Hle. apply (S2 n m Hn). lia.
Qed.

Lemma thief_at s l (i : nat) (p : wtpc A) (t : qtview) : Forall (thief_ok s l) (w_th s) → w_th s !! i = Some (p, t) → thief_ok s l (p, t).
Proof. intros Ht Hi. exact (proj1 (Forall_lookup _ _) Ht i _ Hi). Qed.
Lemma fenced_at s (i : nat) (p : wtpc A) (t : qtview) b a :
  owner_ok s → w_th s !! i = Some (p, t) → w_opc s = WPopF b a → fenced s b (p, t).
Proof. intros Ho Hi E. unfold owner_ok in Ho. rewrite E in Ho. destruct Ho as (_ & Hf & _). exact (proj1 (Forall_lookup _ _) Hf i _ Hi). Qed.

(** Line 81. *)
Lemma step_VIdle s h l pend (i n : nat) t s' :
  winv s h l pend → w_th s !! i = Some (VIdle, t) → wthief i n s = Some s' → winv s' h l pend.
Proof.
  intros Hi Hth. unfold WeakQueue.wthief. rewrite Hth. cbn [mbind option_bind fst snd].
  destruct (load _ _ _ _ _) as [[v t']|] eqn:Hl; [|done]. cbn [mbind option_bind fst snd].
  intros Heq. apply (inj Some) in Heq. subst s'. pose proof Hi as (Hsi & Hb & Hoo & Ht & Hs).
  apply load_spec in Hl as (m & Hm & -> & Hn & Hrel & Hc & Hca & Hat & _ & Haa).
  destruct (top_val _ _ _ Hb Hm) as [Hv Hvt]. rewrite Hv.
  destruct (thief_at _ _ _ _ _ Ht Hth) as (T1 & T2 & _). cbn [fst snd] in T1, T2.
  apply winv_thief; [done|by left|done| |done]. unfold thief_ok. cbn [fst snd].
  split; [auto|]. split; [apply (ev_mono _ _ Hc); done|]. split; [exact Hvt|].
  pose proof (ts_mono _ _ LTop Hat) as Hx. pose proof (ts_mono _ _ LTop (Hca T1)). rewrite ts_at_same in Hx. lia.
Qed.

(** Line 82. *)
Lemma step_VA s h l pend (i n : nat) top t s' :
  winv s h l pend → w_th s !! i = Some (VA top, t) → wthief i n s = Some s' → winv s' h l pend.
Proof.
  intros Hi Hth. unfold WeakQueue.wthief. rewrite Hth. cbn [mbind option_bind fst snd]. cbv zeta.
  set (f := fence_sc (w_sc s) t). intros Heq. apply (inj Some) in Heq. subst s'. pose proof Hi as (Hsi & Hb & Hoo & Ht & Hs).
  destruct (thief_at _ _ _ _ _ Ht Hth) as (T1 & T2 & T3 & T4). cbn [fst snd] in *.
  assert (∀ k : loc, (default 0%nat (w_sc s !! k) <= ts (t_cur f.2) k)%nat) as Hsc.
  { intros k. unfold f, fence_sc. cbn [snd t_cur]. rewrite ts_join. unfold ts at 2. cbn [v_ts]. lia. }
  assert (vle (t_acq t) (t_cur f.2)) as Hac by apply vle_join_l.
  pose proof (s_len _ _ _ _ Hsi) as Hlen.
  apply (winv_thief s h l pend i (VF top) f.2 f.1 (w_log s)); [done|by left|exact Hsc| |].
  - unfold thief_ok. cbn [fst snd]. split; [apply vle_refl|].
    split; [apply (ev_mono _ _ Hac), (ev_mono _ _ T1); done|]. split; [exact T3|].
    match goal with |- _ <= sc_top ?x ∧ _ => set (s1 := x) end.
    split.
    { change (sc_top s1) with (Z.of_nat (ts (t_cur f.2) LTop)). pose proof (ts_mono _ _ LTop Hac). lia. }
    intros E k m Hk Hle Hlt. destruct Hs as [_ S2].
    destruct (S2 k m Hk) as [S3 S4]; [pose proof (Hsc LBot); unfold sc_bot; lia|].
    change (p_top s1) with (p_top s) in E. destruct l as [|x l]; [cbn in Hlen; lia|].
    exists x. split; [done|]. specialize (S4 0%nat x eq_refl). rewrite Z.add_0_r in S4. rewrite <-E in S4. apply S4. lia.
  - intros b a Ho. unfold fenced. cbn [fst snd]. left. unfold owner_ok in Hoo. rewrite Ho in Hoo. destruct Hoo as (O1 & _).
    pose proof (Hsc LBot). unfold sc_bot in O1. cbn [w_bot]. lia.
Qed.

(** Lines 83, 87 and 95. *)
Lemma step_VF s h l pend (i n : nat) top t s' :
  winv s h l pend → w_th s !! i = Some (VF top, t) → wthief i n s = Some s' → winv s' h l pend.
Proof.
  intros Hi Hth. unfold WeakQueue.wthief. rewrite Hth. cbn [mbind option_bind fst snd].
  destruct (load _ _ _ _ _) as [[v t']|] eqn:Hl; [|done]. cbn [mbind option_bind fst snd].
  pose proof Hi as (Hsi & Hb & Hoo & Ht & Hs).
  apply load_spec in Hl as (m & Hm & -> & Hn & Hrel & Hc & Hca & Hat & Hacq & Haa). specialize (Hacq eq_refl).
  destruct (thief_at _ _ _ _ _ Ht Hth) as (T1 & T2 & T3 & T4 & T5). cbn [fst snd] in *.
  case_bool_decide as Hlt; intros Heq; apply (inj Some) in Heq; subst s'.
  - apply winv_thief; [done|by left|done| |].
    + unfold thief_ok. cbn [fst snd]. split; [auto|]. split; [apply (ev_mono _ _ Hc); done|].
      split; [exact T3|]. split; [exact T4|]. intros E.
      destruct (T5 E n m Hm Hn Hlt) as (x & Hx & Hcv). exists x. split; [done|].
      apply (cov_mono s (m_view m)); [done|exact Hcv].
    + intros b a Ho. pose proof (fenced_at _ _ _ _ _ _ Hoo Hth Ho) as Hfe. unfold fenced in *. cbn [fst snd] in *.
      destruct Hfe as [Hfe|Hfe]; [|by right]. left.
      destruct (s_cur _ _ _ _ Hsi) as (ar & _ & _ & _ & _ & Hoi). rewrite Ho in Hoi. destruct Hoi as [Hbb _]. cbn in Hbb.
      assert (m_val m = b) as <-; [|done]. rewrite Hbb. unfold p_bot. rewrite (last_index _ _ _ Hm) by lia. done.
  - apply (winv_thief s h l pend i VIdle t' (w_sc s) (w_log s ++ [ESteal None])); [done|by right|done| |done].
    unfold thief_ok. cbn [fst snd]. split; [auto|]. split; [apply (ev_mono _ _ Hc); done|done].
Qed.

(** Line 88. *)
Lemma step_VB s h l pend (i n : nat) top t s' :
  winv s h l pend → sync_array s → w_th s !! i = Some (VB top, t) → wthief i n s = Some s' → winv s' h l pend.
Proof.
  intros Hi Hsy Hth. unfold WeakQueue.wthief. rewrite Hth. cbn [mbind option_bind fst snd].
  destruct (load _ _ _ _ _) as [[v t']|] eqn:Hl; [|done]. cbn [mbind option_bind fst snd].
  intros Heq. apply (inj Some) in Heq. subst s'. pose proof Hi as (Hsi & Hb & Hoo & Ht & Hs).
  apply load_spec in Hl as (m & Hm & -> & Hn & Hrel & Hc & Hca & Hat & Hacq & Haa).
  destruct (thief_at _ _ _ _ _ Ht Hth) as (T1 & T2 & T3 & T4 & T5). cbn [fst snd] in *.
  destruct Hb as (H1 & H2 & H3 & H4 & H5 & H5' & _).
  assert (vle (m_view m) (t_cur t')) as Hmv.
  { destruct Hsy as [[_ Hs2]|Hs1]; [by apply Hacq|].
    assert (n = 0%nat) as -> by (apply lookup_lt_Some in Hm; lia). rewrite Hm in H5'. injection H5' as ->. apply vle_empty. }
  destruct (H5 n m Hm) as [H6 H7].
  apply winv_thief; [done|by left|done| |].
  - unfold thief_ok. cbn [fst snd]. split; [auto|]. split; [apply (ev_mono _ _ Hc); done|].
    split; [exact T3|]. split; [exact T4|]. split.
    { destruct H7 as [->|H7]; [apply (ev_mono _ _ Hc); done|]. by apply (ev_mono _ _ Hmv). }
    split; [exact H6|]. intros E. destruct (T5 E) as (x & Hx & Hk & Hcv). exists x. split; [done|].
    split; [pose proof (ev_mono _ _ Hc); set_solver|].
    eapply fnd_mono; [|exact (Hcv n m Hm Hn)]. by apply vjoin_le.
  - intros b a Ho. exact (fenced_at _ _ _ _ _ _ Hoo Hth Ho).
Qed.

(** Line 89. *)
Lemma step_VC s h l pend (i n : nat) top a t s' :
  winv s h l pend → w_th s !! i = Some (VC top a, t) → wthief i n s = Some s' → winv s' h l pend.
Proof.
  intros Hi Hth. unfold WeakQueue.wthief. rewrite Hth. cbn [mbind option_bind fst snd].
  pose proof Hi as (Hsi & Hb & Hoo & Ht & Hs).
  destruct (thief_at _ _ _ _ _ Ht Hth) as (T1 & T2 & T3 & T4 & T5 & T6 & T7). cbn [fst snd] in *.
  destruct (w_arrs s !! a) as [ar|] eqn:Har; [|done]. cbn [mbind option_bind].
  destruct (load _ _ _ _ _) as [[v t']|] eqn:Hl; [|done]. cbn [mbind option_bind fst snd].
  rewrite use_known by done.
  intros Heq. apply (inj Some) in Heq. subst s'.
  apply load_spec in Hl as (m & Hm & -> & Hn & Hrel & Hc & Hca & Hat & Hacq & Haa).
  apply winv_thief; [done|by left|done| |].
  - unfold thief_ok. cbn [fst snd]. split; [auto|]. split; [apply (ev_mono _ _ Hc); done|].
    split; [exact T3|]. split; [exact T4|]. intros E. destruct (T7 E) as (x & Hx & Hk & ar' & Har' & Hv & Hle).
    rewrite Har in Har'. injection Har' as <-. exists x. split; [done|].
    split; [pose proof (ev_mono _ _ Hc); set_solver|].
    unfold cell_val in Hv. rewrite (last_index _ _ _ Hm) in Hv by lia. exact Hv.
  - intros b a' Ho. exact (fenced_at _ _ _ _ _ _ Hoo Hth Ho).
Qed.

(** Lines 90–92 and 95. *)
Lemma step_VD s h l pend (i n : nat) top it t s' :
  winv s h l pend → w_th s !! i = Some (VD top it, t) → wthief i n s = Some s' →
  (∃ h' l', winv s' h' l' pend) ∧
  (∀ x, w_log s' = w_log s ++ [ESteal (Some x)] → ∃ pt, w_th s' !! i = Some pt ∧ x.2 ⊆ v_ev (t_cur pt.2)).
Proof.
  intros Hi Hth. unfold WeakQueue.wthief. rewrite Hth. cbn [mbind option_bind fst snd].
  destruct (cas _ _ _ _ _ _) as [[[ok hs'] t']|] eqn:Hcas; [|done]. cbn [mbind option_bind].
  intros Heq. apply (inj Some) in Heq. subst s'. pose proof Hi as (Hsi & Hb & Hoo & Ht & Hs).
  destruct (thief_at _ _ _ _ _ Ht Hth) as (T1 & T2 & T3 & T4 & T5). cbn [fst snd] in *.
  destruct (cas_spec _ _ _ _ _ _ _ _ _ Hcas) as (Hc & Hrel & Hca & _ & m & Hm & Hn & Hok).
  destruct (top_val _ _ _ Hb Hm) as [Hv Hvt].
  assert (EvArray 0 ∈ v_ev (t_cur t')) as Hev0 by (apply (ev_mono _ _ Hc); done).
  destruct ok.
  - destruct Hok as (Hmb & Hlast & (w & ->) & Hat). rewrite Hv in Hmb.
    assert (top = p_top s) as HT by (unfold p_top; lia).
    destruct (T5 HT) as (x & Hx & Hk & ->).
    assert (thief_step (p_q s) (TD top (Some x)) = Some (set_top (p_q s) (top + 1), TIdle, Some (ESteal (Some x)))) as Hstep.
    { cbn [thief_step p_q q_top]. by rewrite bool_decide_eq_true_2 by done. }
    assert (((λ pt, p_t pt.1) <$> w_th s) !! i = Some (TD top (Some x))) as Hthi by (rewrite list_lookup_fmap, Hth; done).
    unfold p_sys in Hsi. destruct (thief_step_inv _ _ _ _ _ _ _ _ _ _ _ _ Hsi Hthi Hstep) as (h' & l' & Hsi' & Hl).
    set (s1 := log_ev (set_thief i (set_wtop s (w_top s ++ [Msg (top + 1) w])) VIdle t') (ESteal (Some x))).
    assert (p_top s1 = top + 1) as HT1 by (unfold p_top; cbn; rewrite app_length; cbn; lia).
    assert (p_sys s1 = Sys (set_top (p_q s) (top + 1)) (p_o (p_cur s) (w_opc s)) (<[i := TIdle]> ((λ pt, p_t pt.1) <$> w_th s)) (w_log s ++ [ESteal (Some x)])) as Hps.
    { unfold p_sys, p_q, set_top. rewrite HT1. cbn [w_th s1 log_ev set_thief set_wtop]. rewrite list_fmap_insert. done. }
    cbn [add_event] in Hsi'. rewrite <-Hps in Hsi'.
    assert (p_end s1 = p_end s) as Hpe by (unfold p_end, s1; cbn; by destruct (w_opc s)).
    destruct Hl as [[_ Hl]|(y & -> & _ & [= <-])]; [cbn in Hl; lia|].
    split.
    + exists h', l'. split; [exact Hsi'|]. split; [|split; [|split]].
      * destruct Hb as (H1 & H2 & H3 & H4 & H5 & H5' & H6 & H7 & H8 & H9 & H10 & H11).
        unfold basic_ok. rewrite Hpe. split; [cbn; by destruct (w_top s)|]. do 2 (split; [done|]). split.
        { intros j m' Hj. cbn in Hj. apply lookup_app_Some in Hj as [Hj|[Hge Hj]]; [by apply H4|].
          apply list_lookup_singleton_Some in Hj as [Hz <-]. cbn. lia. }
        do 5 (split; [done|]). split; [|done]. change (sc_top s1) with (sc_top s). lia.
      * unfold owner_ok in *. change (w_opc s1) with (w_opc s). destruct (w_opc s) as [| | | | | | | | |b a| | |] eqn:Ho; try exact Hoo.
        destruct Hoo as (O1 & O2 & O3). split; [exact O1|].
        pose proof (proj1 (Forall_lookup _ _) O2 i _ Hth) as Hfe. unfold fenced in Hfe. cbn [fst snd] in Hfe.
        split; [apply Forall_insert; [exact O2|done]|]. rewrite HT1. change (o_top s1) with (o_top s). intros E. lia.
      * apply Forall_insert; [|unfold thief_ok; cbn [fst snd]; auto].
        eapply Forall_impl; [exact Ht|]. intros pt. apply thief_top; [lia|done|done].
      * destruct Hs as [S1 S2]. split.
        { intros k y Hy. specialize (S1 (S k) y Hy). rewrite HT1. replace (top + 1 + Z.of_nat k) with (p_top s + Z.of_nat (S k)) by lia. exact S1. }
        intros j m' Hj Hle. destruct (S2 j m' Hj Hle) as [S3 S4]. rewrite Hpe. split; [done|].
        intros k y Hy Hlt. specialize (S4 (S k) y Hy). rewrite HT1 in *.
        replace (top + 1 + Z.of_nat k) with (p_top s + Z.of_nat (S k)) in * by lia. by apply S4.
    + intros y Hy. cbn in Hy. apply app_inv_head in Hy. injection Hy as <-. exists (VIdle, t').
      split; [cbn; apply list_lookup_insert; by eapply lookup_lt_Some|]. cbn. pose proof (ev_mono _ _ Hc). set_solver.
  - destruct Hok as [_ ->]. replace (set_wtop s (w_top s)) with s by (by destruct s). split.
    + exists h, l. apply (winv_thief s h l pend i VIdle t' (w_sc s) (w_log s ++ [ESteal None])); [done|by right|done| |done].
      unfold thief_ok. cbn [fst snd]. auto.
    + intros y Hy. cbn in Hy. by apply app_inv_head in Hy.
Qed.

(** * Every step *)
Lemma arr_grows (a : wact A) s s' : wstep a s = Some s' → (length (w_arr s) <= length (w_arr s'))%nat.
Proof.
  destruct a as [x n|n|n|i n|j e|j k]; cbn [WeakQueue.wstep].
  - destruct (w_opc s); try done. destruct (load _ _ _ _ _) as [r|]; [|done]. by intros [= <-].
  - destruct (w_opc s); try done. destruct (load _ _ _ _ _) as [r|]; [|done]. by intros [= <-].
  - unfold WeakQueue.wowner. destruct (w_opc s); cbn [mbind option_bind].
    + done.
    + destruct (load _ _ _ _ _) as [r|]; [|done]. by intros [= <-].
    + destruct (load _ _ _ _ _) as [r|]; [|done]. cbn [mbind option_bind]. destruct (w_arrs s !! r.1) as [ar|]; [|done].
      cbn [mbind option_bind]. destruct (bool_decide _); intros Heq; apply (inj Some) in Heq; subst s'; [|done].
      cbn. rewrite app_length. lia.
    + destruct (w_arrs s !! a) as [ar|]; [|done]. by intros [= <-].
    + by intros [= <-].
    + by intros [= <-].
    + destruct (load _ _ _ _ _) as [r|]; [|done]. by intros [= <-].
    + by intros [= <-].
    + by intros [= <-].
    + destruct (load _ _ _ _ _) as [r|]; [|done]. by intros [= <-].
    + destruct (bool_decide _); [|by intros [= <-]]. destruct (w_arrs s !! a) as [ar|]; [|done]. cbn [mbind option_bind].
      destruct (load _ _ _ _ _) as [r|]; [|done]. by intros [= <-].
    + destruct (bool_decide _); [|by intros [= <-]]. destruct (cas _ _ _ _ _ _) as [[[ok hs] t']|]; [|done]. by intros [= <-].
    + by intros [= <-].
  - unfold WeakQueue.wthief. destruct (w_th s !! i) as [[p t]|]; [|done]. cbn [mbind option_bind fst snd].
    destruct p as [|top|top|top|top a|top it].
    + destruct (load _ _ _ _ _) as [r|]; [|done]. by intros [= <-].
    + by intros [= <-].
    + destruct (load _ _ _ _ _) as [r|]; [|done]. cbn [mbind option_bind]. destruct (bool_decide _); by intros [= <-].
    + destruct (load _ _ _ _ _) as [r|]; [|done]. by intros [= <-].
    + destruct (w_arrs s !! a) as [ar|]; [|done]. cbn [mbind option_bind].
      destruct (load _ _ _ _ _) as [r|]; [|done]. by intros [= <-].
    + destruct (cas _ _ _ _ _ _) as [[[ok hs] t']|]; [|done]. by intros [= <-].
  - intros [= <-]. by destruct j.
  - destruct (view_of s k); [|done]. intros [= <-]. by destruct j.
Qed.

Lemma sync_back (a : wact A) s s' : w_arr s ≠ [] → wstep a s = Some s' → sync_array s' → sync_array s.
Proof.
  intros Hne Hs [Hl|Hl]; [by left|]. right. apply arr_grows in Hs. destruct (w_arr s); [done|]. cbn in *. lia.
Qed.

Lemma step_inv s h l pend (a : wact A) s' :
  winv s h l pend → wstep a s = Some s' → sync_array s' → ∃ h' l' pend', winv s' h' l' pend'.
Proof.
  intros Hi Hs Hsy. destruct a as [x n|n|n|i n|j e|j k].
  - by eapply step_push.
  - by eapply step_pop.
  - cbn [WeakQueue.wstep] in Hs. destruct (w_opc s) as [|x b|x b top|x b a|x b|x b|b|b a|b a|b a|b top a|b top it|b it] eqn:Ho.
    + unfold WeakQueue.wowner in Hs. by rewrite Ho in Hs.
    + by eapply step_WPushA.
    + by eapply step_WPushB.
    + by eapply step_WPushC.
    + by eapply step_WPushD.
    + by eapply step_WPushE.
    + by eapply step_WPopS.
    + by eapply step_WPopA.
    + by eapply step_WPopB.
    + by eapply step_WPopF.
    + by eapply step_WPopC.
    + by eapply step_WPopD.
    + by eapply step_WPopE.
  - pose proof Hs as Hs'. cbn [WeakQueue.wstep] in Hs. destruct (w_th s !! i) as [[p t]|] eqn:Hth.
    2: { unfold WeakQueue.wthief in Hs. by rewrite Hth in Hs. }
    destruct p as [|top|top|top|top a|top it].
    + exists h, l, pend. by eapply step_VIdle.
    + exists h, l, pend. by eapply step_VA.
    + exists h, l, pend. by eapply step_VF.
    + exists h, l, pend. eapply step_VB; [exact Hi| |exact Hth|exact Hs].
      eapply sync_back; [|exact Hs'|exact Hsy]. by destruct Hi as (_ & (_ & _ & H3 & _) & _).
    + exists h, l, pend. by eapply step_VC.
    + destruct (step_VD _ _ _ _ _ _ _ _ _ _ Hi Hth Hs) as [(h' & l' & Hw) _]. eauto.
  - cbn in Hs. injection Hs as <-. exists h, l, pend. by apply step_learn.
  - cbn [WeakQueue.wstep] in Hs. destruct (view_of s k) as [v|]; [|done]. injection Hs as <-. exists h, l, pend. by apply step_learn.
Qed.

Theorem wreach_inv c k s :
  pow2Z c → wreach array_store array_load c k s → sync_array s → ∃ h l pend, winv s h l pend.
Proof.
  intros Hc. induction 1 as [|s a s' Hr IH Hs]; intros Hsy.
  - eexists _, _, _. by apply winv_init.
  - assert (w_arr s ≠ []) as Hne.
    { clear -Hr. induction Hr as [|s a s' _ IH Hs]; [done|]. apply arr_grows in Hs. destruct (w_arr s), (w_arr s'); cbn in *; try done; lia. }
    destruct (IH (sync_back _ _ _ Hne Hs Hsy)) as (h & l & pend & Hi). by eapply step_inv.
Qed.
End steps.
