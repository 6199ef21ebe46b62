(** C79: what building a schedule builds. *)
From Verif Require Import Base Access ParallelFor Stage SchedBuild.

Lemma bind_ok' {S X Y} (m : M S X) (k : X → M S Y) s s' x : m s = (s', Ok x) → bind m k s = k x s'.
Proof. unfold bind. by intros ->. Qed.

Section props.
Context {A : Type} (grow : nat → nat).
Hypothesis Hgrow : ∀ n, n < grow n.

Record bwf (w : bworld A) : Prop := {
  w_arr : ∀ a i b, bw_scheds w !! a = Some (i, b) → ∃ cap l, bw_arrays w !! b = Some (cap, l);
  w_cap : ∀ b cap l, bw_arrays w !! b = Some (cap, l) → length l ≤ cap;
  w_one : ∀ a a' i i' b, bw_scheds w !! a = Some (i, b) → bw_scheds w !! a' = Some (i', b) → a = a';
  w_lt1 : ∀ a, is_Some (bw_scheds w !! a) → a < bw_next w;
  w_lt2 : ∀ b, is_Some (bw_arrays w !! b) → b < bw_next w }.

(** Schedule [a] is there, with this initial stage, array, capacity and stages. *)
Definition has (w : bworld A) (a : nat) (i : sobj A) (b cap : nat) (l : list (sobj A)) : Prop :=
  bw_scheds w !! a = Some (i, b) ∧ bw_arrays w !! b = Some (cap, l).
Definition frame (a : nat) (w w' : bworld A) : Prop := ∀ a', a' ≠ a → sb_sched w' a' = sb_sched w a'.

Lemma has_sched w a i b cap l : has w a i b cap l → sb_sched w a = Some (Schedule (so_stage i) (so_stage <$> l)).
Proof. intros [H1 H2]. unfold sb_sched. rewrite H1. cbn. by rewrite H2. Qed.
Lemma sched_has w a s : sb_sched w a = Some s → ∃ i b cap l, has w a i b cap l ∧ s = Schedule (so_stage i) (so_stage <$> l).
Proof.
  unfold sb_sched. destruct (bw_scheds w !! a) as [[i b]|] eqn:E1; [|done]. cbn. destruct (bw_arrays w !! b) as [[cap l]|] eqn:E2; [|done].
  cbn. intros [= <-]. by exists i, b, cap, l.
Qed.
Lemma frame_intro a w w' : (∀ a', a' ≠ a → bw_scheds w' !! a' = bw_scheds w !! a') →
  (∀ a' i b, a' ≠ a → bw_scheds w !! a' = Some (i, b) → bw_arrays w' !! b = bw_arrays w !! b) → frame a w w'.
Proof.
  intros H1 H2 a' Ha. unfold sb_sched. rewrite H1 by done. destruct (bw_scheds w !! a') as [[i b]|] eqn:E; [|done]. cbn. by rewrite (H2 _ _ _ Ha E).
Qed.
Lemma frame_trans a w1 w2 w3 : frame a w1 w2 → frame a w2 w3 → frame a w1 w3.
Proof. intros H1 H2 a' Ha. by rewrite H2, H1. Qed.

(** begin_stage *)
Lemma begin_spec w a i b cap l : bwf w → has w a i b cap l →
  let r := if decide (length l < cap) then (b, cap) else (bw_next w, grow cap) in
  ∃ w', sb_begin grow a w = (w', Ok (r.1, length l)) ∧ has w' a i r.1 r.2 (l ++ [empty_stage a]) ∧ bwf w' ∧ frame a w w' ∧
    (length l < cap ∨ bw_arrays w' !! b = None).
Proof.
  intros W [H1 H2]. unfold sb_begin. rewrite H1, H2. destruct (decide (length l < cap)) as [Hl|Hl]; cbn [fst snd].
  - eexists. split; [done|]. split_and!.
    + split; cbn [bw_scheds bw_arrays]; [done|apply lookup_insert].
    + split; cbn [bw_scheds bw_arrays bw_next].
      * intros a' i' b' Ha. destruct (decide (b' = b)) as [->|]; [rewrite lookup_insert; eauto|rewrite lookup_insert_ne by done; by eapply w_arr].
      * intros b' cap' l' [[-> [= <- <-]]|[_ Hb]]%lookup_insert_Some; [rewrite app_length; cbn; lia|by eapply w_cap].
      * intros a1 a2 i1 i2 b1. apply (w_one _ W).
      * apply (w_lt1 _ W).
      * intros b' [<-|[_ Hb]]%lookup_insert_is_Some; apply (w_lt2 _ W); eauto.
    + apply frame_intro; cbn [bw_scheds bw_arrays]; [done|]. intros a' i' b' Ha Hb. rewrite lookup_insert_ne; [done|]. intros ->. apply Ha. by eapply w_one.
    + by left.
  - assert (bw_next w ≠ b) as Hnb by (intros E; pose proof (w_lt2 _ W b (mk_is_Some _ _ H2)); lia).
    eexists. split; [done|]. split_and!.
    + split; cbn [bw_scheds bw_arrays]; apply lookup_insert.
    + split; cbn [bw_scheds bw_arrays bw_next].
      * intros a' i' b' [[-> [= <- <-]]|[Hne Ha]]%lookup_insert_Some; [rewrite lookup_insert; eauto|]. destruct (w_arr _ W _ _ _ Ha) as (c' & l' & Hb').
        assert (b' ≠ b) as Hbb by (intros ->; apply Hne; by eapply w_one).
        assert (bw_next w ≠ b') as Hnb' by (intros E; pose proof (w_lt2 _ W b' (mk_is_Some _ _ Hb')); lia).
        rewrite lookup_insert_ne, lookup_delete_ne by done. eauto.
      * intros b' cap' l' [[<- [= <- <-]]|[_ [_ Hb]%lookup_delete_Some]]%lookup_insert_Some; [|by eapply w_cap].
        rewrite app_length. cbn. pose proof (w_cap _ W _ _ _ H2). pose proof (Hgrow cap). lia.
      * intros a1 a2 i1 i2 b1 X1 X2. apply lookup_insert_Some in X1, X2. destruct X1 as [[? E1]|[N1 X1]], X2 as [[? E2]|[N2 X2]]; simplify_eq; [done| | |by eapply w_one].
        -- destruct (w_arr _ W _ _ _ X2) as (? & ? & Hb). pose proof (w_lt2 _ W _ (mk_is_Some _ _ Hb)). lia.
        -- destruct (w_arr _ W _ _ _ X1) as (? & ? & Hb). pose proof (w_lt2 _ W _ (mk_is_Some _ _ Hb)). lia.
      * intros a' [<-|[_ Ha]]%lookup_insert_is_Some; [pose proof (w_lt1 _ W a (mk_is_Some _ _ H1)); lia|pose proof (w_lt1 _ W a' Ha); lia].
      * intros b' [<-|[_ Hb]]%lookup_insert_is_Some; [lia|]. apply lookup_delete_is_Some in Hb as [_ Hb]. pose proof (w_lt2 _ W b' Hb). lia.
    + apply frame_intro; cbn [bw_scheds bw_arrays]; [intros a' Ha; by rewrite lookup_insert_ne|]. intros a' i' b' Ha Hb.
      destruct (w_arr _ W _ _ _ Hb) as (c' & l' & Hb'). pose proof (w_lt2 _ W b' (mk_is_Some _ _ Hb')).
      rewrite lookup_insert_ne by lia. rewrite lookup_delete_ne; [done|]. intros ->. apply Ha. by eapply w_one.
    + right. cbn [bw_arrays]. rewrite lookup_insert_ne by done. apply lookup_delete.
Qed.

(** add_system through a reference to the stage *)
Lemma add_spec w a i b cap l k s m y : bwf w → has w a i b cap l → l !! k = Some s →
  ∃ w', sb_add m (b, k) y w = (w', Ok tt) ∧ has w' a i b cap (<[k := st_add m y s]> l) ∧ bwf w' ∧ frame a w w'.
Proof.
  intros W [H1 H2] Hk. unfold sb_add. cbn [fst snd]. rewrite H2, Hk. eexists. split; [done|]. split_and!.
  - split; cbn [bw_scheds bw_arrays]; [done|apply lookup_insert].
  - split; cbn [bw_scheds bw_arrays bw_next].
    + intros a' i' b' Ha. destruct (decide (b' = b)) as [->|]; [rewrite lookup_insert; eauto|rewrite lookup_insert_ne by done; by eapply w_arr].
    + intros b' cap' l' [[-> [= <- <-]]|[_ Hb]]%lookup_insert_Some; [rewrite insert_length; by eapply w_cap|by eapply w_cap].
    + intros a1 a2 i1 i2 b1. apply (w_one _ W).
    + apply (w_lt1 _ W).
    + intros b' [<-|[_ Hb]]%lookup_insert_is_Some; apply (w_lt2 _ W); eauto.
  - apply frame_intro; cbn [bw_scheds bw_arrays]; [done|]. intros a' i' b' Ha Hb. rewrite lookup_insert_ne; [done|]. intros ->. apply Ha. by eapply w_one.
Qed.

Lemma init_spec w a i b cap l m y : bwf w → has w a i b cap l →
  ∃ w', sb_add_init m a y w = (w', Ok tt) ∧ has w' a (st_add m y i) b cap l ∧ bwf w' ∧ frame a w w'.
Proof.
  intros W [H1 H2]. unfold sb_add_init. rewrite H1. eexists. split; [done|]. split_and!.
  - split; cbn [bw_scheds bw_arrays]; [apply lookup_insert|done].
  - split; cbn [bw_scheds bw_arrays bw_next].
    + intros a' i' b' [[-> [= <- <-]]|[_ Ha]]%lookup_insert_Some; [eauto|by eapply w_arr].
    + apply (w_cap _ W).
    + intros a1 a2 i1 i2 b1 X1 X2. apply lookup_insert_Some in X1, X2. destruct X1 as [[? E1]|[N1 X1]], X2 as [[? E2]|[N2 X2]]; simplify_eq; [done|by eapply w_one..].
    + intros a' [<-|[_ Ha]]%lookup_insert_is_Some; apply (w_lt1 _ W); eauto.
    + apply (w_lt2 _ W).
  - apply frame_intro; cbn [bw_scheds bw_arrays]; [intros a' Ha; by rewrite lookup_insert_ne|done].
Qed.

(** The implicit move constructor. *)
Lemma move_spec w a i b cap l : bwf w → has w a i b cap l →
  ∃ w', sb_move a w = (w', Ok (bw_next w)) ∧ bw_next w ≠ a ∧ has w' (bw_next w) i b cap l ∧ has w' a (SObj (so_owner i) (Stage [] [])) (S (bw_next w)) 0 [] ∧ bwf w' ∧
    ∀ a', a' ≠ a → a' ≠ bw_next w → sb_sched w' a' = sb_sched w a'.
Proof.
  intros W [H1 H2]. unfold sb_move. rewrite H1. pose proof (w_lt1 _ W a (mk_is_Some _ _ H1)) as L1. pose proof (w_lt2 _ W b (mk_is_Some _ _ H2)) as L2.
  eexists. split; [done|]. split; [lia|]. split_and!.
  - split; cbn [bw_scheds bw_arrays]; [apply lookup_insert|by rewrite lookup_insert_ne by lia].
  - split; cbn [bw_scheds bw_arrays]; [rewrite lookup_insert_ne by lia; apply lookup_insert|apply lookup_insert].
  - split; cbn [bw_scheds bw_arrays bw_next].
    + intros a' i' b' Ha. destruct (decide (b' = S (bw_next w))) as [->|]; [rewrite lookup_insert; eauto|rewrite lookup_insert_ne by done].
      apply lookup_insert_Some in Ha as [[<- [= <- <-]]|[_ [[<- [= <- <-]]|[_ Ha]]%lookup_insert_Some]]; [eauto|done|by eapply w_arr].
    + intros b' cap' l' [[<- [= <- <-]]|[_ Hb]]%lookup_insert_Some; [cbn; lia|by eapply w_cap].
    + assert (∀ a' i' b', bw_scheds w !! a' = Some (i', b') → b' < bw_next w) as Hlt.
      { intros a' i' b' Ha. destruct (w_arr _ W _ _ _ Ha) as (? & ? & Hb). apply (w_lt2 _ W). eauto. }
      intros a1 a2 i1 i2 b1 X1 X2.
      apply lookup_insert_Some in X1, X2. rewrite lookup_insert_Some in X1, X2.
      destruct X1 as [[? E1]|[N1 [[? E1]|[M1 X1]]]], X2 as [[? E2]|[N2 [[? E2]|[M2 X2]]]]; simplify_eq; try done; try lia;
        try (pose proof (Hlt _ _ _ X1)); try (pose proof (Hlt _ _ _ X2)); try lia.
      * destruct M2. by eapply w_one.
      * destruct M1. by eapply w_one.
      * by eapply w_one.
    + intros a' [<-|[_ [<-|[_ Ha]]%lookup_insert_is_Some]]%lookup_insert_is_Some; [lia|lia|]. pose proof (w_lt1 _ W a' Ha). lia.
    + intros b' [<-|[_ Hb]]%lookup_insert_is_Some; [lia|]. pose proof (w_lt2 _ W b' Hb). lia.
  - intros a' N1 N2. unfold sb_sched. cbn [bw_scheds bw_arrays]. rewrite !lookup_insert_ne by done. destruct (bw_scheds w !! a') as [[i' b']|] eqn:E; [|done].
    cbn. destruct (w_arr _ W _ _ _ E) as (? & ? & Hb). pose proof (w_lt2 _ W b' (mk_is_Some _ _ Hb)). by rewrite lookup_insert_ne by lia.
Qed.

Lemma breach_wf w : breach grow w → bwf w.
Proof.
  induction 1 as [|w k w' _ W E].
  { split; cbn [bw_init bw_scheds bw_arrays bw_next]; intros *; rewrite ?lookup_empty; try done; by intros []. }
  destruct k as [|a|m r y|m a y|a|a]; cbn [bc_run] in E.
  - unfold bind, sb_new in E. injection E as <-. split; cbn [bw_scheds bw_arrays bw_next].
    + intros a' i' b' [[<- [= <- <-]]|[_ Ha]]%lookup_insert_Some; [rewrite lookup_insert; eauto|]. destruct (w_arr _ W _ _ _ Ha) as (cap & l & Hb).
      pose proof (w_lt2 _ W b' (mk_is_Some _ _ Hb)). rewrite lookup_insert_ne by lia. eauto.
    + intros b' cap' l' [[<- [= <- <-]]|[_ Hb]]%lookup_insert_Some; [cbn; lia|by eapply w_cap].
    + intros a1 a2 i1 i2 b1 X1 X2. apply lookup_insert_Some in X1, X2. destruct X1 as [[? E1]|[N1 X1]], X2 as [[? E2]|[N2 X2]]; simplify_eq; [done| | |by eapply w_one].
      * destruct (w_arr _ W _ _ _ X2) as (? & ? & Hb). pose proof (w_lt2 _ W _ (mk_is_Some _ _ Hb)). lia.
      * destruct (w_arr _ W _ _ _ X1) as (? & ? & Hb). pose proof (w_lt2 _ W _ (mk_is_Some _ _ Hb)). lia.
    + intros a' [<-|[_ Ha]]%lookup_insert_is_Some; [lia|]. pose proof (w_lt1 _ W a' Ha). lia.
    + intros b' [<-|[_ Hb]]%lookup_insert_is_Some; [lia|]. pose proof (w_lt2 _ W b' Hb). lia.
  - destruct (bw_scheds w !! a) as [[i b]|] eqn:E1.
    2:{ unfold bind, sb_begin in E. by rewrite E1 in E. }
    destruct (w_arr _ W _ _ _ E1) as (cap & l & E2). destruct (begin_spec w a i b cap l W (conj E1 E2)) as (w1 & Eb & _ & W1 & _).
    rewrite (bind_ok' _ _ _ _ _ Eb) in E. by injection E as <-.
  - unfold sb_add in E. destruct r as [b k]. cbn [fst snd] in E. destruct (bw_arrays w !! b) as [[cap l]|] eqn:E2; [|done]. destruct (l !! k) as [s|] eqn:Ek; [|done].
    injection E as <-. split; cbn [bw_scheds bw_arrays bw_next].
    + intros a' i' b' Ha. destruct (decide (b' = b)) as [->|]; [rewrite lookup_insert; eauto|rewrite lookup_insert_ne by done; by eapply w_arr].
    + intros b' cap' l' [[-> [= <- <-]]|[_ Hb]]%lookup_insert_Some; [rewrite insert_length; by eapply w_cap|by eapply w_cap].
    + intros a1 a2 i1 i2 b1. apply (w_one _ W).
    + apply (w_lt1 _ W).
    + intros b' [<-|[_ Hb]]%lookup_insert_is_Some; apply (w_lt2 _ W); eauto.
  - destruct (bw_scheds w !! a) as [[i b]|] eqn:E1.
    2:{ unfold sb_add_init in E. by rewrite E1 in E. }
    destruct (w_arr _ W _ _ _ E1) as (cap & l & E2). destruct (init_spec w a i b cap l m y W (conj E1 E2)) as (w1 & Eb & _ & W1 & _).
    rewrite Eb in E. by injection E as <-.
  - destruct (bw_scheds w !! a) as [[i b]|] eqn:E1.
    2:{ unfold bind, sb_move in E. by rewrite E1 in E. }
    destruct (w_arr _ W _ _ _ E1) as (cap & l & E2). destruct (move_spec w a i b cap l W (conj E1 E2)) as (w1 & Eb & _ & _ & _ & W1 & _).
    rewrite (bind_ok' _ _ _ _ _ Eb) in E. by injection E as <-.
  - unfold sb_drop in E. destruct (bw_scheds w !! a) as [[i b]|] eqn:E1; [|done]. injection E as <-. split; cbn [bw_scheds bw_arrays bw_next].
    + intros a' i' b' [Hne Ha]%lookup_delete_Some. destruct (w_arr _ W _ _ _ Ha) as (cap & l & Hb). rewrite lookup_delete_ne; [eauto|]. intros ->. apply Hne. by eapply w_one.
    + intros b' cap' l' [_ Hb]%lookup_delete_Some. by eapply w_cap.
    + intros a1 a2 i1 i2 b1 [_ X1]%lookup_delete_Some [_ X2]%lookup_delete_Some. by eapply w_one.
    + intros a' [_ Ha]%lookup_delete_is_Some. by apply (w_lt1 _ W).
    + intros b' [_ Hb]%lookup_delete_is_Some. by apply (w_lt2 _ W).
Qed.

(** * The theorems *)
Lemma st_add_app m y (s : sobj A) : so_stage (st_add m y s) = stage_app (so_stage s) (systems_of [(m, y)]).
Proof. destruct m; unfold st_add, stage_app, systems_of; cbn; by rewrite app_nil_r. Qed.
Lemma stage_app_assoc (s t u : stage A) : stage_app (stage_app s t) u = stage_app s (stage_app t u).
Proof. unfold stage_app. cbn. by rewrite !(assoc_L (++)). Qed.
Lemma systems_cons my (ys : list (bool * A)) : stage_app (systems_of [my]) (systems_of ys) = systems_of (my :: ys).
Proof. destruct my as [[] y]; done. Qed.
Lemma stage_app_nil (s : stage A) : stage_app s (systems_of []) = s.
Proof. destruct s. unfold stage_app, systems_of. cbn. by rewrite !app_nil_r. Qed.

Lemma adds_spec ys : ∀ w a i b cap l s, bwf w → has w a i b cap (l ++ [s]) →
  ∃ w' s', forM ys (λ my, sb_add my.1 (b, length l) my.2) w = (w', Ok tt) ∧ has w' a i b cap (l ++ [s']) ∧ bwf w' ∧ frame a w w' ∧
    so_owner s' = so_owner s ∧ so_stage s' = stage_app (so_stage s) (systems_of ys).
Proof.
  induction ys as [|[m y] ys IH]; intros w a i b cap l s W H; cbn [forM].
  - exists w, s. split_and!; try done. by rewrite stage_app_nil.
  - destruct (add_spec w a i b cap (l ++ [s]) (length l) s m y W H) as (w1 & E1 & H1 & W1 & F1); [by apply list_lookup_middle|].
    rewrite (bind_ok' _ _ _ _ _ E1). replace (<[length l:=st_add m y s]> (l ++ [s])) with (l ++ [st_add m y s]) in H1.
    2:{ pose proof (insert_app_r_alt l [s] (length l) (st_add m y s) ltac:(lia)) as E. rewrite E, Nat.sub_diag. done. }
    destruct (IH w1 a i b cap l (st_add m y s) W1 H1) as (w2 & s2 & E2 & H2 & W2 & F2 & O2 & S2). exists w2, s2. split_and!; try done; [by eapply frame_trans|].
    by rewrite S2, st_add_app, stage_app_assoc, systems_cons.
Qed.

(** The fluent use builds what is written down, whatever was built before and however vectors grow, and leaves every other
    schedule as it is. *)
Theorem C79_fluent (w : bworld A) (a : nat) (s : schedule A) (l : list (link A)) : breach grow w → sb_sched w a = Some s →
  ∃ w' : bworld A, sb_chain grow l a w = (w', Ok a) ∧ sb_sched w' a = Some (sched_app s l) ∧ ∀ a', a' ≠ a → sb_sched w' a' = sb_sched w a'.
Proof.
  intros W%breach_wf (i & b & cap & ss & H & ->)%sched_has. revert w i b cap ss W H. induction l as [|[m y|ys] l IH]; intros w i b cap ss W H; cbn [sb_chain].
  - exists w. split; [done|]. split; [|done]. rewrite (has_sched _ _ _ _ _ _ H). unfold sched_app. cbn [init_of stages_of omap list_omap sc_init sc_stages].
    by rewrite stage_app_nil, app_nil_r.
  - destruct (init_spec w a i b cap ss m y W H) as (w1 & E1 & H1 & W1 & F1). rewrite (bind_ok' _ _ _ _ _ E1).
    destruct (IH _ _ _ _ _ W1 H1) as (w2 & E2 & S2 & F2). exists w2. split; [done|]. split; [|by eapply frame_trans]. rewrite S2. unfold sched_app.
    cbn [sc_init sc_stages]. rewrite st_add_app, stage_app_assoc. change (init_of (LInit m y :: l)) with ((m, y) :: init_of l). by rewrite systems_cons.
  - destruct (begin_spec w a i b cap ss W H) as (w1 & E1 & H1 & W1 & F1 & _). set (r := if decide (length ss < cap) then (b, cap) else (bw_next w, grow cap)) in *.
    rewrite (bind_ok' _ _ _ _ _ E1). destruct (adds_spec ys w1 a i r.1 r.2 ss (empty_stage a) W1 H1) as (w2 & s' & E2 & H2 & W2 & F2 & O2 & S2).
    rewrite (bind_ok' _ _ _ _ _ E2). assert (sb_end (r.1, length ss) w2 = (w2, Ok a)) as E3.
    { unfold sb_end, sb_deref. cbn [fst snd]. destruct H2 as [_ ->]. cbn [mbind option_bind snd]. rewrite list_lookup_middle by done. by rewrite O2. }
    rewrite (bind_ok' _ _ _ _ _ E3). destruct (IH _ _ _ _ _ W2 H2) as (w3 & E4 & S4 & F4). exists w3. split; [done|].
    split; [|eapply frame_trans; [|done]; by eapply frame_trans]. rewrite S4. unfold sched_app. cbn [sc_init sc_stages]. rewrite fmap_app. cbn [fmap list_fmap].
    change (init_of (LStage ys :: l)) with (init_of l). change (stages_of (LStage ys :: l)) with (systems_of ys :: stages_of l). rewrite <- (assoc_L (++)). cbn [app]. rewrite S2.
    unfold stage_app at 2. cbn [empty_stage so_stage st_systems st_main app]. by destruct (systems_of ys).
Qed.

(** A stage& that is kept: it can be used after [n] more calls of begin_stage exactly if the array has room for them. *)
Lemma begins_dead n : ∀ w a b w', bwf w → b < bw_next w → bw_arrays w !! b = None → sb_begins grow n a w = (w', Ok tt) → bw_arrays w' !! b = None.
Proof.
  induction n as [|n IH]; intros w a b w' W Hb Hn E; cbn [sb_begins] in E; [by injection E as <-|].
  destruct (bw_scheds w !! a) as [[i b0]|] eqn:E1.
  2:{ unfold bind, sb_begin in E. by rewrite E1 in E. }
  destruct (w_arr _ W _ _ _ E1) as (cap & l & E2). destruct (begin_spec w a i b0 cap l W (conj E1 E2)) as (w1 & Eb & _ & W1 & _).
  rewrite (bind_ok' _ _ _ _ _ Eb) in E. eapply IH; [exact W1| | |exact E].
  - unfold sb_begin in Eb. rewrite E1, E2 in Eb. destruct (decide (length l < cap)); injection Eb as <-; cbn [bw_next]; lia.
  - unfold sb_begin in Eb. rewrite E1, E2 in Eb. destruct (decide (length l < cap)); injection Eb as <-; cbn [bw_arrays].
    + rewrite lookup_insert_ne; [done|]. intros ->. by rewrite E2 in Hn.
    + rewrite lookup_insert_ne by lia. rewrite lookup_delete_ne; [done|]. intros ->. by rewrite E2 in Hn.
Qed.
Lemma begins_spec n : ∀ w a i b cap l, bwf w → has w a i b cap l →
  ∃ w', sb_begins grow n a w = (w', Ok tt) ∧ bwf w' ∧
    (length l + n ≤ cap → bw_arrays w' !! b = Some (cap, l ++ replicate n (empty_stage a))) ∧ (cap < length l + n → bw_arrays w' !! b = None).
Proof.
  induction n as [|n IH]; intros w a i b cap l W H; cbn [sb_begins].
  { exists w. split; [done|]. split; [done|]. destruct H as [_ H]. pose proof (w_cap _ W _ _ _ H). split; [|lia]. intros _. cbn [replicate]. by rewrite app_nil_r. }
  destruct (begin_spec w a i b cap l W H) as (w1 & E1 & H1 & W1 & _ & D). rewrite (bind_ok' _ _ _ _ _ E1).
  destruct (IH _ _ _ _ _ _ W1 H1) as (w2 & E2 & W2 & K1 & K2). exists w2. split; [done|]. split; [done|]. rewrite app_length in K1, K2. cbn [length] in K1, K2.
  destruct (decide (length l < cap)) as [Hl|Hl]; cbn [fst snd] in *.
  - split; intros; [|apply K2; lia]. rewrite K1 by lia. cbn [replicate]. by rewrite <- (assoc_L (++)).
  - split; [lia|]. intros _. destruct D as [?|D]; [lia|]. eapply begins_dead; [exact W1| |exact D|exact E2].
    destruct H as [Ha H]. pose proof (w_lt2 _ W b (mk_is_Some _ _ H)). unfold sb_begin in E1. rewrite Ha, H in E1. destruct (decide (length l < cap)); injection E1 as <-; cbn [bw_next]; lia.
Qed.

Theorem C79_kept (w : bworld A) (a : nat) (w1 : bworld A) (r : nat * nat) (cap : nat) (l : list (sobj A)) (n : nat) (w2 : bworld A) (m : bool) (y : A) : breach grow w → sb_begin grow a w = (w1, Ok r) → bw_arrays w1 !! r.1 = Some (cap, l) → sb_begins grow n a w1 = (w2, Ok tt) →
  ((sb_add m r y w2).2 = Ok tt ↔ length l + n ≤ cap) ∧ ((sb_add m r y w2).2 = UB ↔ cap < length l + n) ∧
  ((sb_end r w2).2 = Ok a ↔ length l + n ≤ cap) ∧ ((sb_end r w2).2 = UB ↔ cap < length l + n).
Proof.
  intros W%breach_wf E Hr En. destruct (bw_scheds w !! a) as [[i b]|] eqn:E1.
  2:{ unfold sb_begin in E. by rewrite E1 in E. }
  destruct (w_arr _ W _ _ _ E1) as (cap0 & l0 & E2). destruct (begin_spec w a i b cap0 l0 W (conj E1 E2)) as (w1' & Eb & H1 & W1 & _).
  rewrite E in Eb. injection Eb as <- ->. set (q := if decide (length l0 < cap0) then (b, cap0) else (bw_next w, grow cap0)) in *. cbn [fst] in Hr.
  pose proof H1 as [_ H1']. rewrite Hr in H1'. injection H1' as -> ->. destruct (begins_spec n _ _ _ _ _ _ W1 H1) as (w2' & En' & _ & K1 & K2).
  rewrite En in En'. injection En' as <-. destruct (decide (length (l0 ++ [empty_stage a]) + n ≤ q.2)) as [Hle|Hle].
  - specialize (K1 Hle). assert (((l0 ++ [empty_stage a]) ++ replicate n (empty_stage a)) !! length l0 = Some (empty_stage (A:=A) a)) as Hk.
    { rewrite <- (assoc_L (++)). by apply list_lookup_middle. }
    assert ((sb_add m (q.1, length l0) y w2).2 = Ok tt) as X1.
    { unfold sb_add. cbn [fst snd]. by rewrite K1, Hk. }
    assert ((sb_end (q.1, length l0) w2).2 = Ok a) as X2.
    { unfold sb_end, sb_deref. cbn [fst snd]. rewrite K1. cbn [mbind option_bind snd]. by rewrite Hk. }
    rewrite X1, X2. split_and!; (split; [try done; lia|intros; try done; lia]).
  - specialize (K2 ltac:(lia)). assert ((sb_add m (q.1, length l0) y w2).2 = UB) as X1.
    { unfold sb_add. cbn [fst snd]. by rewrite K2. }
    assert ((sb_end (q.1, length l0) w2).2 = UB) as X2.
    { unfold sb_end, sb_deref. cbn [fst snd]. by rewrite K2. }
    rewrite X1, X2. split_and!; (split; [try done; lia|intros; try done; lia]).
Qed.

(** So every reference to a stage is lost in the end: whatever was built before, however vectors grow. *)
Theorem C79_kept_refuted (w : bworld A) (a : nat) (w1 : bworld A) (r : nat * nat) : breach grow w → sb_begin grow a w = (w1, Ok r) →
  ∃ n w2, sb_begins grow n a w1 = (w2, Ok tt) ∧ ∀ m y, (sb_add m r y w2).2 = UB ∧ (sb_end r w2).2 = UB.
Proof.
  intros Hw E. pose proof (breach_wf _ Hw) as W. destruct (bw_scheds w !! a) as [[i b]|] eqn:E1.
  2:{ unfold sb_begin in E. by rewrite E1 in E. }
  destruct (w_arr _ W _ _ _ E1) as (cap0 & l0 & E2). destruct (begin_spec w a i b cap0 l0 W (conj E1 E2)) as (w1' & Eb & H1 & W1 & _).
  pose proof Eb as Eb'. rewrite E in Eb'. injection Eb' as <- ->. set (q := if decide (length l0 < cap0) then (b, cap0) else (bw_next w, grow cap0)) in *.
  destruct (begins_spec q.2 _ _ _ _ _ _ W1 H1) as (w2 & En & _). exists q.2, w2. split; [exact En|]. intros m y.
  destruct (C79_kept w a w1 _ _ _ q.2 w2 m y Hw E (proj2 H1) En) as (_ & K1 & _ & K2). rewrite app_length in K1, K2. cbn [length] in K1, K2.
  split; [apply K1|apply K2]; lia.
Qed.

(** Moving a schedule: the new one has the contents, the old one is empty, the others stay. *)
Theorem C79_move (w : bworld A) (a : nat) (s : schedule A) : breach grow w → sb_sched w a = Some s →
  ∃ w' c, sb_move a w = (w', Ok c) ∧ sb_sched w c = None ∧ sb_sched w' c = Some s ∧ sb_sched w' a = Some (Schedule (Stage [] []) []) ∧
    ∀ a', a' ≠ a → a' ≠ c → sb_sched w' a' = sb_sched w a'.
Proof.
  intros W%breach_wf (i & b & cap & l & H & ->)%sched_has. destruct (move_spec w a i b cap l W H) as (w' & E & Hne & H1 & H2 & W' & F).
  exists w', (bw_next w). split; [done|]. split; [|split; [by eapply has_sched|split; [by rewrite (has_sched _ _ _ _ _ _ H2)|done]]].
  unfold sb_sched. destruct (bw_scheds w !! bw_next w) as [x|] eqn:Ex; [|done]. pose proof (w_lt1 _ W _ (mk_is_Some _ _ Ex)). lia.
Qed.

(** But a stage that was begun before the move belongs to the old schedule: its systems go into the new one, and
    end_stage().begin_stage() adds to the old one.  When the old one is gone, end_stage().begin_stage() is undefined. *)
Theorem C79_moved_refuted (w : bworld A) (a : nat) (s : schedule A) (w1 : bworld A) (r : nat * nat) (w2 : bworld A) (c : nat) (m : bool) (y : A) : breach grow w → sb_sched w a = Some s → sb_begin grow a w = (w1, Ok r) → sb_move a w1 = (w2, Ok c) →
  (∃ w3, sb_add m r y w2 = (w3, Ok tt) ∧ sb_sched w3 c = Some (Schedule (sc_init s) (sc_stages s ++ [systems_of [(m, y)]])) ∧
     sb_sched w3 a = Some (Schedule (Stage [] []) [])) ∧
  (∃ w4 r', (let! a' := sb_end r in sb_begin grow a') w2 = (w4, Ok r') ∧ sb_sched w4 a = Some (Schedule (Stage [] []) [Stage [] []]) ∧
     sb_sched w4 c = Some (Schedule (sc_init s) (sc_stages s ++ [Stage [] []]))) ∧
  (∃ w5, sb_drop a w2 = (w5, Ok tt) ∧ ((let! a' := sb_end r in sb_begin grow a') w5).2 = UB).
Proof.
  intros W%breach_wf (i & b & cap & l & H & ->)%sched_has E Em. destruct (begin_spec w a i b cap l W H) as (w1' & Eb & H1 & W1 & _).
  rewrite E in Eb. injection Eb as <- ->. set (q := if decide (length l < cap) then (b, cap) else (bw_next w, grow cap)) in *.
  destruct (move_spec _ _ _ _ _ _ W1 H1) as (w2' & Em' & Hne & H2 & H3 & W2 & _). rewrite Em in Em'. injection Em' as <- ->. set (c := bw_next w1) in *.
  assert (sb_end (q.1, length l) w2 = (w2, Ok a)) as Ee.
  { unfold sb_end, sb_deref. cbn [fst snd]. destruct H2 as [_ ->]. cbn [mbind option_bind snd]. by rewrite list_lookup_middle. }
  split_and!.
  - destruct (add_spec w2 c i q.1 q.2 _ (length l) (empty_stage a) m y W2 H2) as (w3 & Ea & H4 & W3 & F3); [by apply list_lookup_middle|].
    exists w3. split; [done|]. split; [|rewrite (F3 a) by done; by rewrite (has_sched _ _ _ _ _ _ H3)]. rewrite (has_sched _ _ _ _ _ _ H4). f_equal. f_equal. cbn [sc_stages].
    pose proof (insert_app_r_alt l [empty_stage a] (length l) (st_add m y (empty_stage a)) ltac:(lia)) as Ei. rewrite Ei, Nat.sub_diag, fmap_app. cbn [list_insert insert fmap list_fmap].
    rewrite st_add_app. unfold stage_app. cbn [empty_stage so_stage st_systems st_main app]. by destruct (systems_of [(m, y)]).
  - destruct (begin_spec w2 a _ _ _ _ W2 H3) as (w4 & E4 & H4 & W4 & F4 & _). eexists w4, _. split; [rewrite (bind_ok' _ _ _ _ _ Ee); exact E4|].
    split; [by rewrite (has_sched _ _ _ _ _ _ H4)|]. rewrite (F4 c) by done. rewrite (has_sched _ _ _ _ _ _ H2), fmap_app. done.
  - destruct H3 as [H3 H3']. unfold sb_drop. rewrite H3. eexists. split; [done|].
    match goal with |- (bind _ _ ?w5).2 = UB => assert (sb_end (q.1, length l) w5 = (w5, Ok a)) as Ee5 end.
    { unfold sb_end, sb_deref. cbn [fst snd bw_arrays]. rewrite lookup_delete_ne.
      - destruct H2 as [_ ->]. cbn [mbind option_bind snd]. by rewrite list_lookup_middle.
      - intros Eq. destruct H2 as [H2 _]. rewrite <- Eq in H2. apply Hne. by eapply w_one. }
    rewrite (bind_ok' _ _ _ _ _ Ee5). unfold sb_begin. cbn [bw_scheds]. by rewrite lookup_delete.
Qed.
End props.

(** * Examples: vectors that double *)
Definition dbl (n : nat) : nat := S n + n.
Lemma dbl_grows n : n < dbl n.
Proof. unfold dbl. lia. Qed.
Definition exb0 : bworld nat := (sb_new bw_init).1.
Lemma exb0_reach : breach dbl exb0.
Proof. eapply (BRS _ _ KNew); [apply BR0|done]. Qed.

(** Two stages, with a system for the main thread and initial systems. *)
Example C79_fluent_ex : sb_sched exb0 0 = Some (Schedule (Stage [] []) []) ∧
  (let w := (sb_chain dbl [LInit false 1; LStage [(false, 2); (true, 3); (false, 4)]; LInit true 5; LStage []; LStage [(false, 6)]] 0 exb0).1 in
   sb_sched w 0 = Some (Schedule (Stage [1] [5]) [Stage [2; 4] [3]; Stage [] []; Stage [6] []])).
Proof. by vm_compute. Qed.

(** The reference to the first stage is lost by the second begin_stage; that to the second one outlives the third. *)
Example C79_kept_ex :
  let w1 := (sb_begin dbl 0 exb0).1 in let w2 := (sb_begin dbl 0 w1).1 in let w3 := (sb_begin dbl 0 w2).1 in let w4 := (sb_begin dbl 0 w3).1 in
  (sb_begin dbl 0 exb0).2 = Ok (2, 0) ∧ (sb_begin dbl 0 w1).2 = Ok (3, 1) ∧ fst <$> bw_arrays w1 !! 2 = Some 1 ∧
  (sb_add false (2, 0) 9 w1).2 = Ok tt ∧ (sb_add false (2, 0) 9 w2).2 = UB ∧ (sb_end (2, 0) w2).2 = UB ∧
  (sb_add false (3, 1) 9 w3).2 = Ok tt ∧ (sb_add false (3, 1) 9 w4).2 = UB.
Proof. vm_compute. by split_and!. Qed.

Example C79_moved_ex :
  let w1 := (sb_begin dbl 0 exb0).1 in let w2 := (sb_move 0 w1).1 in let w3 := (sb_begin dbl 0 w2).1 in
  (sb_move 0 w1).2 = Ok 3 ∧ (sb_end (2, 0) w2).2 = Ok 0 ∧ sb_sched w3 0 = Some (Schedule (Stage [] []) [Stage [] []]) ∧ sb_sched w3 3 = Some (Schedule (Stage [] []) [Stage [] []]).
Proof. vm_compute. by split_and!. Qed.

Print Assumptions C79_fluent.
Print Assumptions C79_kept.
Print Assumptions C79_kept_refuted.
Print Assumptions C79_move.
Print Assumptions C79_moved_refuted.
