(** Systems that throw on a pool with one worker. *)
From Verif Require Import Base Task StageThrow.
Local Open Scope nat_scope.

(** The only worker's steps. *)
Definition zs (s s' : zpool) : Prop := z_step 0 None s = Some s'.
Definition st1 ts q c l d ev : zpool := ZPool ts [ZWorker q c] l d ev None.

Lemma last_seq q a k : last (q ++ seq a (S k)) = Some (a + k).
Proof. rewrite seq_S, app_assoc. apply last_snoc. Qed.
Lemma pop_seq q a k : take (length (q ++ seq a (S k)) - 1) (q ++ seq a (S k)) = q ++ seq a k.
Proof. rewrite seq_S, app_assoc, app_length. cbn [length]. replace (_ + 1 - 1) with (length (q ++ seq a k)) by lia. apply take_app. Qed.

Lemma dec1 (j : nat) : (N.of_nat j < 65536)%N → (N.of_nat (S j) < 65536)%N → dec16 (N.of_nat (S j)) = N.of_nat j.
Proof. intros H1 H2. unfold dec16, ctr_mod. replace (N.of_nat (S j) + (2 ^ 16 - 1))%N with (N.of_nat j + 1 * 2 ^ 16)%N by lia. rewrite N.mod_add by done. by apply N.mod_small. Qed.
Lemma inc1 (j : nat) : (N.of_nat (S j) < 65536)%N → inc16 (N.of_nat j) = N.of_nat (S j).
Proof. intros H1. unfold inc16, ctr_mod. rewrite N.mod_small; lia. Qed.

(** The tasks of a batch, of which the first [S j] are unfinished. *)
Record batch_tasks (T : nat) (ys : list sysrun) (j : nat) (ts : list ztask) : Prop := BatchTasks {
  bt_len : length ts = T + length ys;
  bt_parent : ∀ y, ys !! 0 = Some y → ts !! T = Some (ZTask (Task None (N.of_nat (S j)) false) y);
  bt_child : ∀ i y, 1 ≤ i ≤ j → ys !! i = Some y → ts !! (T + i) = Some (ZTask (Task (Some T) 1 false) y) }.

Lemma submit_all ys ms T : ∀ done p ts q l d ev,
  (N.of_nat (length (done ++ ys)) < 65536)%N → T + length done = length ts →
  match done with [] => p = None | _ => p = Some T ∧ batch_tasks T done (length done - 1) ts end →
  ∃ ts', rtc zs (st1 ts (q ++ seq T (length done)) None (ZSubmit ys ms p :: l) d ev)
    (st1 ts' (q ++ seq T (length (done ++ ys))) None (ZMain ms (match done ++ ys with [] => None | _ => Some T end) :: l) d ev) ∧
    T + length (done ++ ys) = length ts' ∧
    match done ++ ys with [] => True | _ => batch_tasks T (done ++ ys) (length (done ++ ys) - 1) ts' end.
Proof.
  induction ys as [|y ys IH]; intros done p ts q l d ev Hlt HT Hp.
  - rewrite app_nil_r. exists ts. split; [|split; [done|by destruct done; [|destruct Hp]]].
    apply rtc_once. unfold zs, z_step. cbn. destruct done; [by subst p|by destruct Hp as [-> _]].
  - destruct (IH (done ++ [y]) (Some T) ((match p with Some p => alter (zt_upd (upd_ctr inc16)) p ts | None => ts end) ++ [ZTask (Task p 1 false) y]) q l d ev) as (ts' & Hr & Hl & Hb).
    + by rewrite <- app_assoc.
    + rewrite !app_length. cbn [length]. destruct p; rewrite ?alter_length; lia.
    + replace (match done ++ [y] with [] => _ | _ => _ end) with (Some T = Some T ∧ batch_tasks T (done ++ [y]) (length (done ++ [y]) - 1) ((match p with Some p => alter (zt_upd (upd_ctr inc16)) p ts | None => ts end) ++ [ZTask (Task p 1 false) y])) by (by destruct done).
      split; [done|]. destruct done as [|y0 done].
      * subst p. cbn in HT. assert (T = length ts) as -> by lia. cbn [app length Nat.sub]. split.
        -- rewrite app_length. cbn. lia.
        -- intros y1 [= <-]. rewrite lookup_app_r by lia. by rewrite Nat.sub_diag.
        -- intros i y1 Hi. lia.
      * destruct Hp as [-> [B1 B2 B3]]. cbn [length] in HT. rewrite app_length in *. cbn [length] in *. replace (S (length done) + 1 - 1) with (S (length done)) by lia. replace (S (length done) - 1) with (length done) in * by lia. split.
        -- rewrite app_length, alter_length. cbn [length app]. rewrite app_length. cbn. lia.
        -- intros y1 Hy. cbn in Hy. rewrite lookup_app_l by (rewrite alter_length; lia). rewrite list_lookup_alter. rewrite (B2 y1) by done. cbn [fmap option_fmap option_map]. unfold zt_upd, upd_ctr. cbn [zt_task zt_sys t_parent t_ctr t_done]. rewrite inc1; [done|]. lia.
        -- intros i y1 Hi Hy. destruct (decide (i = S (length done))) as [->|Hne].
           ++ rewrite lookup_app_r by (rewrite alter_length; lia). rewrite alter_length. replace (T + S (length done) - length ts) with 0 by lia.
              rewrite lookup_app_r in Hy by (cbn; lia). cbn [length] in Hy. rewrite Nat.sub_diag in Hy. cbn in Hy. injection Hy as <-. done.
           ++ rewrite lookup_app_l by (rewrite alter_length; lia). rewrite list_lookup_alter_ne by lia. apply B3; [lia|]. by rewrite lookup_app_l in Hy by (cbn; lia).
    + exists ts'. rewrite <- app_assoc in *. cbn [app] in *. split; [|done]. eapply rtc_l; [|exact Hr].
      assert (default (length ts) p = T) as Ed. { destruct done; [subst p; cbn in *; lia|by destruct Hp as [-> _]]. }
      unfold zs, z_step, st1. cbn [z_end z_workers lookup list_lookup mbind option_bind zw_cur z_main z_code z_tasks]. rewrite Ed. unfold z_submit, z_upd, z_set_workers, z_set_tasks, z_set_code.
      cbn [z_workers alter list_alter zw_queue zw_set_queue z_tasks z_dead z_events z_end zw_cur]. do 5 f_equal. rewrite app_length. cbn [length]. rewrite Nat.add_1_r, seq_S, app_assoc. by rewrite HT.
Qed.

Lemma unwind_main v ts q c l l' d ev : z_unwind l = Some l' → z_throw 0 (z_log (EThrew v) (st1 ts q c l d ev)) = st1 ts q None l' d (ev ++ [EThrew v] ++ [ECaught]).
Proof. intros Hu. unfold z_throw, z_log, st1. cbn. rewrite Hu. cbn. by rewrite <- app_assoc. Qed.

Lemma main_all ms : ∀ ts q p l d ev,
  let r := ev_systems ms in
  if r.2 then ∀ l', z_unwind l = Some l' → rtc zs (st1 ts q None (ZMain ms p :: l) d ev) (st1 ts q None l' d (ev ++ r.1 ++ [ECaught]))
  else rtc zs (st1 ts q None (ZMain ms p :: l) d ev) (st1 ts q None (ZWait p :: l) d (ev ++ r.1)).
Proof.
  induction ms as [|y ms IH]; intros ts q p l d ev.
  - cbn. rewrite app_nil_r. by apply rtc_once.
  - cbn [ev_systems]. destruct (y_throws y) eqn:Hy.
    + cbn [snd fst]. intros l' Hl. apply rtc_once. unfold zs, z_step. cbn -[z_throw z_log]. rewrite Hy. by rewrite unwind_main with (l' := l').
    + specialize (IH ts q p l d (ev ++ [ERan (y_id y)])). cbn [fst snd].
      assert (zs (st1 ts q None (ZMain (y :: ms) p :: l) d ev) (st1 ts q None (ZMain ms p :: l) d (ev ++ [ERan (y_id y)]))) as Hs.
      { unfold zs, z_step. cbn. by rewrite Hy. }
      destruct (ev_systems ms) as [es []]; cbn [fst snd] in *.
      * intros l' Hl. eapply rtc_l; [exact Hs|]. specialize (IH l' Hl). by rewrite <- app_assoc in IH.
      * eapply rtc_l; [exact Hs|]. by rewrite <- app_assoc in IH.
Qed.

Lemma rev_lookup_take (ys : list sysrun) j y : ys !! j = Some y → rev (take (S j) ys) = y :: rev (take j ys).
Proof. intros Hy. rewrite (take_S_r _ _ _ Hy), rev_app_distr. done. Qed.

Lemma wait_all T ys q l d : (N.of_nat (length ys) < 65536)%N → d ≤ T → ∀ j ts ev, j < length ys → batch_tasks T ys j ts →
  let r := ev_systems (rev (take (S j) ys)) in
  ∃ ts' q', length ts' = length ts ∧
  if r.2 then ∀ l', z_unwind l = Some l' → rtc zs (st1 ts (q ++ seq T (S j)) None (ZWait (Some T) :: l) d ev) (st1 ts' q' None l' d (ev ++ r.1 ++ [ECaught]))
  else rtc zs (st1 ts (q ++ seq T (S j)) None (ZWait (Some T) :: l) d ev) (st1 ts' q' None l d (ev ++ r.1)).
Proof.
  intros Hlt Hd. induction j as [|j IH]; intros ts ev Hj B.
  - destruct (lookup_lt_is_Some_2 ys 0 ltac:(lia)) as [y Hy]. rewrite (rev_lookup_take _ _ _ Hy). cbn [take rev ev_systems].
    pose proof (bt_parent _ _ _ _ B y Hy) as Hp.
    assert (zs (st1 ts (q ++ seq T 1) None (ZWait (Some T) :: l) d ev) (st1 ts q (Some (ZRun T)) (ZWait (Some T) :: l) d ev)) as S1.
    { unfold zs, z_step, st1. cbn -[bool_decide last take Nat.sub seq]. rewrite Hp. cbn -[last take Nat.sub seq]. unfold z_get_task. cbn -[last take Nat.sub seq]. rewrite last_seq, Nat.add_0_r. cbn -[last take Nat.sub seq].
      rewrite pop_seq. cbn. by rewrite app_nil_r. }
    destruct (y_throws y) eqn:Ht; cbn [fst snd].
    + exists ts, q. split; [done|]. intros l' Hl. eapply rtc_l; [exact S1|]. apply rtc_once. unfold zs, z_step, st1. cbn -[z_throw z_log]. rewrite Hp. cbn -[z_throw z_log]. rewrite decide_False by lia. rewrite Ht.
      fold (st1 ts q (Some (ZRun T)) (ZWait (Some T) :: l) d ev). by rewrite unwind_main with (l' := l').
    + pose proof (lookup_lt_Some _ _ _ Hp) as HT.
      set (ts1 := alter (zt_upd set_done) T ts). set (ts2 := alter (zt_upd (upd_ctr dec16)) T ts1). exists ts2, q. split; [unfold ts2, ts1; by rewrite !alter_length|].
      assert (ts2 !! T = Some (ZTask (Task None 0 true) y)) as H2.
      { unfold ts2, ts1. rewrite !list_lookup_alter, Hp. done. }
      eapply rtc_l; [exact S1|]. eapply rtc_l; [|eapply rtc_l; [|eapply rtc_l; [|apply rtc_once]]].
      * unfold zs, z_step, st1. cbn. rewrite Hp. cbn. rewrite decide_False by lia. rewrite Ht. cbn. reflexivity.
      * unfold zs, z_step. cbn. reflexivity.
      * unfold zs, z_step. cbn. fold ts1 ts2. rewrite H2. cbn. reflexivity.
      * unfold zs, z_step. cbn. rewrite H2. cbn. reflexivity.
  - destruct (lookup_lt_is_Some_2 ys (S j) ltac:(lia)) as [y Hy]. rewrite (rev_lookup_take _ _ _ Hy). cbn [ev_systems].
    destruct (lookup_lt_is_Some_2 ys 0 ltac:(lia)) as [y0 Hy0]. pose proof (bt_parent _ _ _ _ B y0 Hy0) as Hp.
    pose proof (bt_child _ _ _ _ B (S j) y ltac:(lia) Hy) as Hc.
    assert (zs (st1 ts (q ++ seq T (S (S j))) None (ZWait (Some T) :: l) d ev) (st1 ts (q ++ seq T (S j)) (Some (ZRun (T + S j))) (ZWait (Some T) :: l) d ev)) as S1.
    { unfold zs, z_step, st1. cbn -[bool_decide last take Nat.sub seq N.of_nat]. rewrite Hp. cbn -[bool_decide last take Nat.sub seq N.of_nat]. rewrite bool_decide_false by lia. unfold z_get_task. cbn -[last take Nat.sub seq]. rewrite last_seq. cbn -[last take Nat.sub seq].
      by rewrite pop_seq. }
    destruct (y_throws y) eqn:Ht; cbn [fst snd].
    + exists ts, (q ++ seq T (S j)). split; [done|]. intros l' Hl. eapply rtc_l; [exact S1|]. apply rtc_once. unfold zs, z_step, st1. cbn -[z_throw z_log]. rewrite Hc. cbn -[z_throw z_log]. rewrite decide_False by lia. rewrite Ht.
      f_equal. exact (unwind_main (y_id y) ts (q ++ seq T (S j)) (Some (ZRun (T + S j))) (ZWait (Some T) :: l) l' d ev Hl).
    + set (ts1 := alter (zt_upd set_done) (T + S j) ts). set (ts2 := alter (zt_upd (upd_ctr dec16)) (T + S j) ts1). set (ts3 := alter (zt_upd (upd_ctr dec16)) T ts2).
      assert (ts2 !! (T + S j) = Some (ZTask (Task (Some T) 0 true) y)) as H2 by (unfold ts2, ts1; by rewrite !list_lookup_alter, Hc).
      assert (ts3 !! T = Some (ZTask (Task None (N.of_nat (S j)) false) y0)) as H3.
      { unfold ts3. rewrite list_lookup_alter. unfold ts2, ts1. rewrite !list_lookup_alter_ne by lia. rewrite Hp. cbn [fmap option_fmap option_map]. unfold zt_upd, upd_ctr. cbn [zt_task zt_sys t_parent t_ctr t_done].
        rewrite dec1; [done|lia|lia]. }
      assert (batch_tasks T ys j ts3) as B3.
      { split.
        - unfold ts3, ts2, ts1. rewrite !alter_length. apply B.
        - intros y1 Hy1. rewrite Hy0 in Hy1. injection Hy1 as <-. done.
        - intros i y1 Hi Hy1. unfold ts3, ts2, ts1. rewrite !list_lookup_alter_ne by lia. apply (bt_child _ _ _ _ B); [lia|done]. }
      destruct (IH ts3 (ev ++ [ERan (y_id y)]) ltac:(lia) B3) as (ts' & q' & Hl & Hr). exists ts', q'.
      split; [rewrite Hl; unfold ts3, ts2, ts1; by rewrite !alter_length|].
      assert (rtc zs (st1 ts (q ++ seq T (S (S j))) None (ZWait (Some T) :: l) d ev) (st1 ts3 (q ++ seq T (S j)) None (ZWait (Some T) :: l) d (ev ++ [ERan (y_id y)]))) as S2.
      { eapply rtc_l; [exact S1|]. eapply rtc_l; [|eapply rtc_l; [|eapply rtc_l; [|eapply rtc_l; [|apply rtc_once]]]].
        - unfold zs, z_step, st1. cbn -[seq]. rewrite Hc. cbn -[seq]. rewrite decide_False by lia. rewrite Ht. cbn -[seq]. reflexivity.
        - unfold zs, z_step. cbn -[seq]. reflexivity.
        - unfold zs, z_step. cbn -[seq]. fold ts1 ts2. rewrite H2. cbn -[seq]. reflexivity.
        - unfold zs, z_step. cbn -[seq]. reflexivity.
        - unfold zs, z_step. cbn -[seq N.of_nat]. fold ts3. rewrite H3. cbn -[seq N.of_nat bool_decide]. rewrite bool_decide_false by lia. reflexivity. }
      destruct (ev_systems (rev (take (S j) ys))) as [es []]; cbn [fst snd] in *.
      * intros l' Hl'. etrans; [exact S2|]. specialize (Hr l' Hl'). by rewrite <- app_assoc in Hr.
      * etrans; [exact S2|]. by rewrite <- app_assoc in Hr.
Qed.

Lemma ev_app a b : ev_systems (a ++ b) = if (ev_systems a).2 then ev_systems a else ((ev_systems a).1 ++ (ev_systems b).1, (ev_systems b).2).
Proof. induction a as [|y a IH]; cbn; [by destruct (ev_systems b)|]. destruct (y_throws y); [done|]. rewrite IH. by destruct (ev_systems a) as [? []]. Qed.

Lemma batch_run b ts q l d ev : (N.of_nat (length (b_systems b)) < 65536)%N → d ≤ length ts →
  let r := ev_systems (ev_batch b) in
  ∃ ts' q', length ts ≤ length ts' ∧
  if r.2 then ∀ l', z_unwind l = Some l' → rtc zs (st1 ts q None (ZBatch b :: l) d ev) (st1 ts' q' None l' d (ev ++ r.1 ++ [ECaught]))
  else rtc zs (st1 ts q None (ZBatch b :: l) d ev) (st1 ts' q' None l d (ev ++ r.1)).
Proof.
  intros Hlt Hd. destruct b as [ys ms]. cbn [b_systems b_main ev_batch] in *. unfold ev_batch. cbn [b_systems b_main].
  destruct (submit_all ys ms (length ts) [] None ts q l d ev Hlt) as (ts1 & Hr1 & Hl1 & Hb1); [cbn; lia|done|].
  cbn [length app seq] in Hr1, Hl1, Hb1. rewrite app_nil_r in Hr1.
  assert (rtc zs (st1 ts q None (ZBatch (BatchRun ys ms) :: l) d ev) (st1 ts1 (q ++ seq (length ts) (length ys)) None (ZMain ms (match ys with [] => None | _ => Some (length ts) end) :: l) d ev)) as Hr2.
  { eapply rtc_l; [|exact Hr1]. done. }
  clear Hr1. rewrite ev_app. pose proof (main_all ms ts1 (q ++ seq (length ts) (length ys)) (match ys with [] => None | _ => Some (length ts) end) l d ev) as Hm.
  cbn zeta in Hm. destruct (ev_systems ms) as [es []]; cbn [fst snd] in *.
  - exists ts1, (q ++ seq (length ts) (length ys)). split; [lia|]. intros l' Hl'. etrans; [exact Hr2|]. by apply Hm.
  - destruct ys as [|y ys].
    + cbn. exists ts1, (q ++ []). split; [lia|]. etrans; [exact Hr2|]. etrans; [exact Hm|]. cbn [length seq]. rewrite !app_nil_r. by apply rtc_once.
    + destruct (wait_all (length ts) (y :: ys) q l d Hlt Hd (length (y :: ys) - 1) ts1 (ev ++ es) ltac:(cbn; lia) Hb1) as (ts' & q' & Hl' & Hw).
      replace (S (length (y :: ys) - 1)) with (length (y :: ys)) in Hw by (cbn; lia). rewrite (firstn_all (y :: ys)) in Hw.
      exists ts', q'. split; [lia|]. destruct (ev_systems (rev (y :: ys))) as [es2 []]; cbn [fst snd] in *.
      * intros l' Hu. etrans; [exact Hr2|]. etrans; [exact Hm|]. specialize (Hw l' Hu). by rewrite <- !app_assoc in *.
      * etrans; [exact Hr2|]. etrans; [exact Hm|]. by rewrite <- !app_assoc in *.
Qed.

Lemma unwind_batches bs l : z_unwind ((ZBatch <$> bs) ++ ZFlush :: ZTry :: l) = Some l.
Proof. by induction bs. Qed.

Lemma run_run bs : ∀ ts q l d ev, Forall (λ b, (N.of_nat (length (b_systems b)) < 65536)%N) bs → d ≤ length ts →
  ∃ ts' q', length ts ≤ length ts' ∧
  rtc zs (st1 ts q None ((ZBatch <$> bs) ++ ZFlush :: ZTry :: l) d ev) (st1 ts' q' None l d (ev ++ ev_run bs)).
Proof.
  induction bs as [|b bs IH]; intros ts q l d ev Hf Hd.
  - exists ts, q. split; [done|]. eapply rtc_l; [|apply rtc_once]; [done|]. unfold zs, z_step. cbn. unfold z_log, z_set_code. cbn. by rewrite <- app_assoc.
  - apply Forall_cons in Hf as [Hb Hf]. destruct (batch_run b ts q ((ZBatch <$> bs) ++ ZFlush :: ZTry :: l) d ev Hb Hd) as (ts1 & q1 & Hl1 & Hr1).
    unfold ev_run. cbn [fmap list_fmap concat]. rewrite ev_app. destruct (ev_systems (ev_batch b)) as [es []] eqn:Eb; cbn [fst snd] in *.
    + exists ts1, q1. split; [done|]. apply Hr1. apply unwind_batches.
    + destruct (IH ts1 q1 l d (ev ++ es) Hf ltac:(lia)) as (ts' & q' & Hl' & Hr'). exists ts', q'. split; [lia|].
      etrans; [exact Hr1|]. unfold ev_run in Hr'. by rewrite <- !app_assoc in *.
Qed.

Lemma prog_run p : ∀ ts q d ev, Forall act_ok p → d ≤ length ts →
  ∃ ts' q' d', rtc zs (st1 ts q None (ZAct <$> p) d ev) (st1 ts' q' None [] d' (ev ++ concat (ev_act <$> p))).
Proof.
  induction p as [|a p IH]; intros ts q d ev Hf Hd; [exists ts, q, d; cbn; by rewrite app_nil_r|].
  apply Forall_cons in Hf as [Ha Hf]. destruct a as [bs|]; cbn [fmap list_fmap concat ev_act].
  - destruct (run_run bs ts q (ZAct <$> p) d ev Ha Hd) as (ts1 & q1 & Hl1 & Hr1). destruct (IH ts1 q1 d (ev ++ ev_run bs) Hf ltac:(lia)) as (ts' & q' & d' & Hr').
    exists ts', q', d'. eapply rtc_l; [|etrans; [exact Hr1|]]; [done|]. by rewrite <- app_assoc in Hr'.
  - destruct (IH ts q (length ts) ev Hf ltac:(lia)) as (ts' & q' & d' & Hr'). exists ts', q', d'. by eapply rtc_l.
Qed.

(** One worker has no choice. *)
Lemma get_task_len w v s s' : z_get_task w v s = Some s' → length (z_workers s') = length (z_workers s).
Proof.
  unfold z_get_task. intros H. destruct (z_workers s !! w) as [x|]; [|done]. cbn in H. destruct (last _); [injection H as <-; cbn; by rewrite !alter_length|].
  destruct v as [j|]; [|by injection H as <-]. destruct (decide _); [done|]. destruct (z_workers s !! j) as [y|]; [|done]. cbn in H.
  destruct (zw_queue y); injection H as <-; [done|]. cbn. by rewrite !alter_length.
Qed.
Lemma throw_len w s : length (z_workers (z_throw w s)) = length (z_workers s).
Proof. destruct w; [|done]. cbn. destruct (z_unwind _); cbn; by rewrite ?alter_length. Qed.
Lemma step_len w v s s' : z_step w v s = Some s' → length (z_workers s') = length (z_workers s).
Proof.
  unfold z_step. intros H. destruct (z_end s); [done|]. destruct (z_workers s !! w) as [x|]; [|done]. cbn in H. destruct (zw_cur x) as [[t|t|t]|].
  - destruct (z_tasks s !! t); [|done]. cbn in H. injection H as <-. destruct (decide _); [done|]. destruct (y_throws _); [by rewrite throw_len|]. cbn. by rewrite alter_length.
  - injection H as <-. cbn. by rewrite alter_length.
  - destruct (z_tasks s !! t); [|done]. cbn in H. injection H as <-. cbn. by rewrite alter_length.
  - destruct w as [|w]; [|by apply get_task_len in H]. unfold z_main in H. destruct (z_code s) as [|[[bs|]|b|[|y ys] ms p|[|y ys] p|[t|]| |] l]; try done; try (injection H as <-; cbn; by rewrite ?alter_length).
    + injection H as <-. destruct (y_throws y); [|done]. by destruct (z_unwind _); cbn; rewrite ?alter_length.
    + destruct (z_tasks s !! t); [|done]. cbn in H. destruct (bool_decide _); [by injection H as <-|by apply get_task_len in H].
Qed.
Lemma step_one w v s s' : length (z_workers s) = 1 → z_step w v s = Some s' → zs s s'.
Proof.
  intros Hl H. unfold zs. assert (w = 0) as ->.
  { unfold z_step in H. destruct (z_end s); [done|]. destruct (z_workers s !! w) eqn:Hw; [|done]. apply lookup_lt_Some in Hw. lia. }
  assert (∀ v s', z_get_task 0 v s = Some s' → z_get_task 0 None s = Some s') as Hg.
  { clear -Hl. intros v s' H. unfold z_get_task in *. destruct (z_workers s !! 0) as [x|]; [|done]. cbn in *. destruct (last _); [done|]. destruct v as [j|]; [|done].
    destruct (decide _); [done|]. destruct (z_workers s !! j) eqn:Hj; [|done]. apply lookup_lt_Some in Hj. lia. }
  unfold z_step in *. destruct (z_end s); [done|]. destruct (z_workers s !! 0) as [x|]; [|done]. cbn in *. destruct (zw_cur x) as [[t|t|t]|]; [done..|].
  unfold z_main in *. destruct (z_code s) as [|[[bs|]|b|[|y ys] ms p|[|y ys] p|[t|]| |] l]; try done.
  destruct (z_tasks s !! t); [|done]. cbn in *. destruct (bool_decide _); [done|by eapply Hg].
Qed.
Lemma reach_one p s : z_reach 1 p s → rtc zs (z_start 1 p) s ∧ length (z_workers s) = 1.
Proof.
  induction 1 as [|s w v s' Hr [IH Hl] Hs]; [done|]. split; [|by rewrite (step_len _ _ _ _ Hs)]. eapply rtc_r; [done|]. by eapply step_one.
Qed.
Lemma one_reach p s : rtc zs (z_start 1 p) s → z_reach 1 p s.
Proof. intros H. remember (z_start 1 p) as s0. assert (z_reach 1 p s0) as R by (subst; constructor). clear Heqs0. induction H; [done|]. apply IHrtc. by eapply zr_step. Qed.

Lemma zs_det s s1 s2 : zs s s1 → zs s s2 → s1 = s2.
Proof. unfold zs. congruence. Qed.
Lemma rtc_det s s1 s2 : (∀ s', ¬ zs s2 s') → rtc zs s s1 → rtc zs s s2 → rtc zs s1 s2.
Proof.
  intros Hn H1 H2. induction H1 as [|s s' s1 Hs H1 IH]; [done|]. apply IH. inversion H2 as [|? s'' ? Hs'' H2']; subst; [by apply Hn in Hs|]. by rewrite (zs_det _ _ _ Hs Hs'').
Qed.

(** Events are only added. *)
Lemma get_task_ev w v s s' : z_get_task w v s = Some s' → z_events s' = z_events s.
Proof.
  unfold z_get_task. intros H. destruct (z_workers s !! w) as [x|]; [|done]. cbn in H. destruct (last _); [by injection H as <-|].
  destruct v as [j|]; [|by injection H as <-]. destruct (decide _); [done|]. destruct (z_workers s !! j) as [y|]; [|done]. cbn in H.
  destruct (zw_queue y); by injection H as <-.
Qed.
Lemma throw_ev w s : z_events s `prefix_of` z_events (z_throw w s).
Proof. destruct w; [|done]. cbn. destruct (z_unwind _); cbn; [by eexists|done]. Qed.
Lemma step_ev w v s s' : z_step w v s = Some s' → z_events s `prefix_of` z_events s'.
Proof.
  unfold z_step. intros H. destruct (z_end s); [done|]. destruct (z_workers s !! w) as [x|]; [|done]. cbn in H. destruct (zw_cur x) as [[t|t|t]|].
  - destruct (z_tasks s !! t); [|done]. cbn in H. injection H as <-. destruct (decide _); [done|]. destruct (y_throws _); [|by eexists]. etrans; [|apply throw_ev]. by eexists.
  - by injection H as <-.
  - destruct (z_tasks s !! t); [|done]. cbn in H. by injection H as <-.
  - destruct w as [|w]; [|apply get_task_ev in H; by rewrite H]. unfold z_main in H. destruct (z_code s) as [|[[bs|]|b|[|y ys] ms p|[|y ys] p|[t|]| |] l]; try done; try (injection H as <-; first [done|by eexists]).
    + injection H as <-. destruct (y_throws y); [|by eexists]. destruct (z_unwind _); cbn; rewrite <- ?app_assoc; by eexists.
    + destruct (z_tasks s !! t); [|done]. cbn in H. destruct (bool_decide _); [by injection H as <-|]. apply get_task_ev in H; by rewrite H.
Qed.
Lemma rtc_ev s s' : rtc zs s s' → z_events s `prefix_of` z_events s'.
Proof. induction 1 as [|s s1 s' Hs _ IH]; [done|]. etrans; [by eapply step_ev|done]. Qed.

Lemma one_worker p s : Forall act_ok p → z_reach 1 p s →
  z_end s = None ∧ z_events s `prefix_of` concat (ev_act <$> p) ∧
  (z_code s = [] → (∀ x, x ∈ z_workers s → zw_cur x = None) → z_events s = concat (ev_act <$> p)) ∧
  ∃ s', rtc zs s s' ∧ z_code s' = [] ∧ z_events s' = concat (ev_act <$> p).
Proof.
  intros Hf Hr. destruct (prog_run p [] [] 0 [] Hf ltac:(done)) as (ts & q & d & Hrun). cbn [app] in Hrun. apply reach_one in Hr as [Hr Hl].
  assert (∀ s', ¬ zs (st1 ts q None [] d (concat (ev_act <$> p))) s') as Hend by done.
  pose proof (rtc_det _ _ _ Hend Hr Hrun) as Hto. split.
  - destruct (z_end s) eqn:He; [|done]. inversion Hto as [|? s1 ? H1]; subst; [done|]. unfold zs, z_step in H1. by rewrite He in H1.
  - split; [apply (rtc_ev _ _ Hto)|]. split; [|by eexists].
    intros Hc Hw. inversion Hto as [|? s1 ? H1 H2]; subst; [done|]. unfold zs, z_step in H1. destruct (z_end s); [done|].
    destruct (z_workers s !! 0) as [x|] eqn:Hx; [|done]. cbn in H1. rewrite (Hw x) in H1 by (by eapply elem_of_list_lookup_2). unfold z_main in H1. by rewrite Hc in H1.
Qed.
