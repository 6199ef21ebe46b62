(** C93: commands recorded while a flush runs. *)
From Verif Require Import Base Bits Layout PropLayout HandlePool SparseMap HashTable Bitset ComponentSet Chunk Archetype Registry View RegSpec RegRun Command CommandSpec PropStorage PropCommand PropSysCommand FlushHook.
From Coq Require Import Sorting.Sorted.
Local Open Scope nat_scope.

(** * What recording does to the queues *)
Lemma on_regs_bufs {X} (m : M (list registry) X) cs : cs_bufs (on_regs_of m cs).1 = cs_bufs cs.
Proof. unfold on_regs_of. by destruct (m (cs_regs cs)). Qed.
Definition live_at (cs : cstate) (b : nat) : option bool := cb_live <$> cs_bufs cs !! b.
(** [cs'] has the buffers of [cs] with [l] behind the queue of [b]. *)
Definition appended (b : nat) (l : list command) (cs cs' : cstate) : Prop :=
  (∀ a, live_at cs' a = live_at cs a ∧ length (cs_bufs cs') = length (cs_bufs cs)) ∧
  ∀ a, queue_of cs' a = queue_of cs a ++ (if decide (a = b) then l else []).
Lemma appended_same b cs cs' : cs_bufs cs' = cs_bufs cs → appended b [] cs cs'.
Proof. intros E. unfold appended, live_at, queue_of. rewrite E. split; [done|]. intros a. case_decide; by rewrite app_nil_r. Qed.
Lemma appended_trans b l l' cs cs1 cs2 : appended b l cs cs1 → appended b l' cs1 cs2 → appended b (l ++ l') cs cs2.
Proof.
  intros [H1 H2] [H3 H4]. split.
  - intros a. destruct (H1 a), (H3 a). split; congruence.
  - intros a. rewrite H4, H2. case_decide; by rewrite <-app_assoc.
Qed.
Lemma push_appended b c cs cs' o : cb_push b c cs = (cs', o) → appended b (match o with Ok _ => [c] | _ => [] end) cs cs' ∧ (o = Ok tt ∨ o = UB).
Proof.
  unfold cb_push, cb_at. intros E. destruct (cs_bufs cs !! b) as [x|] eqn:Hx; [|injection E as <- <-; split; [by apply appended_same|tauto]].
  destruct (cb_live x) eqn:Hl; [|injection E as <- <-; split; [by apply appended_same|tauto]]. injection E as <- <-. split; [|tauto].
  assert (b < length (cs_bufs cs)) as Hlt by (by eapply lookup_lt_Some). split.
  - intros a. unfold live_at. cbn. rewrite insert_length. split; [|done]. destruct (decide (a = b)) as [->|]; [|by rewrite list_lookup_insert_ne by done].
    rewrite list_lookup_insert, Hx by done. cbn. by rewrite Hl.
  - intros a. unfold queue_of. cbn. case_decide as Ha; [subst a|].
    + rewrite list_lookup_insert, Hx by done. done.
    + rewrite list_lookup_insert_ne by done. by rewrite app_nil_r.
Qed.

Section props.
Context (U : universe).

Lemma record1_appended i b k cs cs' o : record1 U i b k cs = (cs', o) → ∃ l, appended b l cs cs'.
Proof.
  assert (∀ X (m : M cstate X) (f : X → M cstate handle) (s : cstate), (∀ s s' o, m s = (s', o) → ∃ l, appended b l s s') →
    (∀ x s s' o, f x s = (s', o) → ∃ l, appended b l s s') → ∀ s' o, bind m f s = (s', o) → ∃ l, appended b l s s') as Hbind.
  { intros X m f s Hm Hf s' o' E. unfold bind in E. destruct (m s) as [s1 [x| |]] eqn:E1; destruct (Hm _ _ _ E1) as [l1 H1].
    - destruct (Hf _ _ _ _ E) as [l2 H2]. exists (l1 ++ l2). by eapply appended_trans.
    - injection E as <- <-. by exists l1.
    - injection E as <- <-. by exists l1. }
  assert (∀ X (m : M (list registry) X) s s' o, on_regs_of m s = (s', o) → ∃ l, appended b l s s') as Hregs.
  { intros X m s s' o' E. exists []. apply appended_same. by rewrite <-(on_regs_bufs m s), E. }
  assert (∀ s s' o, cb_stage b s = (s', o) → ∃ l, appended b l s s') as Hstage.
  { intros s s' o' [= <- _]. exists []. by apply appended_same. }
  assert (∀ c s s' o, cb_push b c s = (s', o) → ∃ l, appended b l s s') as Hpush.
  { intros c s s' o' E. eexists. by apply push_appended in E as [? _]. }
  assert (∀ (h : handle) s s' o, (ret h : M cstate handle) s = (s', o) → ∃ l, appended b l s s') as Hret.
  { intros h s s' o' [= <- _]. exists []. by apply appended_same. }
  assert (∀ X (m : M cstate X) (f : X → M cstate unit) (s : cstate), (∀ s s' o, m s = (s', o) → ∃ l, appended b l s s') →
    (∀ x s s' o, f x s = (s', o) → ∃ l, appended b l s s') → ∀ s' o, bind m f s = (s', o) → ∃ l, appended b l s s') as Hbindu.
  { intros X m f s Hm Hf s' o' E. unfold bind in E. destruct (m s) as [s1 [x| |]] eqn:E1; destruct (Hm _ _ _ E1) as [l1 H1].
    - destruct (Hf _ _ _ _ E) as [l2 H2]. exists (l1 ++ l2). by eapply appended_trans.
    - injection E as <- <-. by exists l1.
    - injection E as <- <-. by exists l1. }
  intros E. destruct k as [args|h|h c v|h c|h]; cbn [record1] in E.
  - revert E. apply Hbind; [eauto|]. intros g s s' o'. apply Hbind; [eauto|]. intros st s1 s1' o1. apply Hbind; [eauto|]. intros z s2 s2' o2.
    apply Hbind; [eauto|]. eauto.
  - revert E. apply Hbind; [eauto|]. intros g s s' o'. apply Hbind; eauto.
  - revert E. apply Hbind; [|eauto]. intros s s' o'. apply Hbindu; [eauto|]. intros st s1 s1' o1. apply Hbindu; [eauto|]. eauto.
  - revert E. apply Hbind; eauto.
  - revert E. apply Hbind; eauto.
Qed.
Lemma record_all_appended i b ks : ∀ cs cs' o, record_all U i b ks cs = (cs', o) → ∃ l, appended b l cs cs'.
Proof.
  induction ks as [|k ks IH]; intros cs cs' o E; cbn [record_all] in E.
  - injection E as <- <-. exists []. by apply appended_same.
  - unfold bind in E. destruct (record1 U i b k cs) as [cs1 [g| |]] eqn:E1; destruct (record1_appended _ _ _ _ _ _ E1) as [l1 H1].
    + destruct (IH _ _ _ E) as [l2 H2]. exists (l1 ++ l2). by eapply appended_trans.
    + injection E as <- <-. by exists l1.
    + injection E as <- <-. by exists l1.
Qed.

(** * The invariant of the loops *)
(** The commands of buffer [b] among those executed; those recorded while the buffers chosen by [p] were played. *)
Definition ran (b : nat) (l : list (nat * command)) : list command := (filter (λ x, x.1 = b) l).*2.
Definition while (p : nat → bool) (l : list (nat * command)) : list command := (filter (λ x, p x.1 = true) l).*2.
Definition recorded_in (me : option nat) (b : nat) (l : list (nat * command)) : list command := if decide (me = Some b) then l.*2 else [].

Record hinv (cs : cstate) (me : option nat) (h : hconf) : Prop := {
  hi_at : hf_at h ≤ length (cs_bufs (hf_state h));
  hi_len : length (cs_bufs (hf_state h)) = length (cs_bufs cs);
  hi_queue : ∀ b, queue_of cs b ++ recorded_in me b (hf_rec h) = ran b (hf_run h) ++ queue_of (hf_state h) b;
  hi_behind : ∀ b, b < hf_at h → queue_of (hf_state h) b = if decide (me = Some b) then while (λ k, b <? k) (hf_rec h) else [];
  hi_run : ∀ b c, (b, c) ∈ hf_run h → b ≤ hf_at h;
  hi_rec : ∀ b c, (b, c) ∈ hf_rec h → b ≤ hf_at h ∧ b < length (cs_bufs cs);
  hi_sorted : StronglySorted (λ x y : nat * command, x.1 ≤ y.1) (hf_run h) }.

Lemma ran_app b l l' : ran b (l ++ l') = ran b l ++ ran b l'.
Proof. unfold ran. by rewrite filter_app, fmap_app. Qed.
Lemma while_app p l l' : while p (l ++ l') = while p l ++ while p l'.
Proof. unfold while. by rewrite filter_app, fmap_app. Qed.
Lemma while_pair p k (l : list command) : while p (pair k <$> l) = if p k then l else [].
Proof.
  unfold while. induction l as [|c l IH]; [by destruct (p k)|]. rewrite fmap_cons, filter_cons. cbn [fst].
  destruct (p k) eqn:E; [|by rewrite decide_False by done]. rewrite decide_True by done. by rewrite fmap_cons, IH.
Qed.
Lemma while_none p l : (∀ b c, (b, c) ∈ l → p b = false) → while p l = [].
Proof.
  intros H. unfold while. induction l as [|[b c] l IH]; [done|]. rewrite filter_cons. cbn [fst]. rewrite (H b c) by left.
  rewrite decide_False by done. apply IH. intros b' c' Hin. apply (H b' c'). by right.
Qed.
Lemma queue_none cs b : length (cs_bufs cs) ≤ b → queue_of cs b = [].
Proof. intros H. unfold queue_of. by rewrite lookup_ge_None_2. Qed.

Lemma pop_queue cs k x c q b : cs_bufs cs !! k = Some x → cb_queue x = c :: q →
  queue_of cs b = (if decide (b = k) then [c] else []) ++ queue_of (pop_cmd k cs) b.
Proof.
  intros Hx Hq. unfold queue_of, pop_cmd. cbn [cs_bufs]. case_decide as Hb; [subst b|].
  - rewrite list_lookup_alter, Hx. cbn. by rewrite Hq.
  - by rewrite list_lookup_alter_ne.
Qed.
Lemma hinv_step i me hook cs h h' : hinv cs me h → hook_step U i me hook h = Ok (Some h') → hinv cs me h'.
Proof.
  intros [Ha Hl Hq Hb Hru Hre Hso] H. unfold hook_step in H. destruct (cs_bufs (hf_state h) !! hf_at h) as [x|] eqn:Hx; [|done].
  destruct (cb_live x); [|done]. assert (hf_at h < length (cs_bufs (hf_state h))) as Hlt by (by eapply lookup_lt_Some).
  destruct (cb_queue x) as [|c q] eqn:Eq.
  - injection H as <-. constructor; cbn [hf_at hf_state hf_run hf_rec].
    + lia.
    + done.
    + done.
    + intros b Hbl. destruct (decide (b = hf_at h)) as [->|]; [|apply Hb; lia].
      assert (queue_of (hf_state h) (hf_at h) = []) as -> by (unfold queue_of; rewrite Hx; cbn; by rewrite Eq).
      case_decide; [|done]. symmetry. apply while_none. intros b c Hin. apply Hre in Hin as [Hin _]. apply Nat.ltb_ge. lia.
    + intros b c Hin. apply Hru in Hin. lia.
    + intros b c Hin. apply Hre in Hin as [? ?]. split; [lia|done].
    + done.
  - destruct (run_hook U i me (hook c) (pop_cmd (hf_at h) (hf_state h))) as [cs2 [u| |]] eqn:Eh; [|done|done].
    destruct (exec_cmd U (cb_staging x) i c (cs_regs cs2)) as [rs [u'| |]]; [|done|done]. injection H as <-.
    set (cs1 := pop_cmd (hf_at h) (hf_state h)) in *.
    set (new := match me with Some b => drop (length (queue_of cs1 b)) (queue_of cs2 b) | None => [] end).
    assert (length (cs_bufs cs1) = length (cs_bufs (hf_state h))) as L1 by (unfold cs1, pop_cmd; cbn; by rewrite alter_length).
    assert (length (cs_bufs cs2) = length (cs_bufs cs1) ∧ ∀ b, queue_of cs2 b = queue_of cs1 b ++ (if decide (me = Some b) then new else [])) as [L2 Q2].
    { unfold run_hook in Eh. unfold new. destruct (hook c) as [|k ks].
      - injection Eh as <- _. split; [done|]. intros b. case_decide as E; [subst me|by rewrite app_nil_r]. by rewrite drop_all, app_nil_r.
      - destruct me as [b0|]; [|done]. apply record_all_appended in Eh as [l [A1 A2]]. split; [by destruct (A1 0)|].
        intros b. assert (drop (length (queue_of cs1 b0)) (queue_of cs2 b0) = l) as ->.
        { rewrite (A2 b0). destruct (decide (b0 = b0)); [|done]. apply drop_app. }
        rewrite (A2 b). f_equal. destruct (decide (b = b0)), (decide (Some b0 = Some b)); congruence. }
    assert (∀ b, queue_of (CState rs (cs_bufs cs2)) b = queue_of cs2 b) as Q3 by done.
    constructor; cbn [hf_at hf_state hf_run hf_rec cs_bufs].
    + rewrite L2, L1. lia.
    + congruence.
    + intros b. rewrite Q3, Q2. specialize (Hq b). rewrite (pop_queue _ _ _ _ _ b Hx Eq) in Hq. fold cs1 in Hq. rewrite ran_app.
      assert (ran b [(hf_at h, c)] = if decide (b = hf_at h) then [c] else []) as ->.
      { unfold ran. rewrite filter_cons, filter_nil. cbn [fst]. destruct (decide (b = hf_at h)) as [->|]; [by rewrite decide_True|].
        rewrite decide_False; [done|congruence]. }
      unfold recorded_in in *. destruct (decide (me = Some b)).
      * rewrite fmap_app, app_assoc, Hq, <-!app_assoc. do 3 f_equal. rewrite <-list_fmap_compose. clear. induction new as [|y l IH]; [done|]. cbn. by f_equal.
      * rewrite !app_nil_r in *. by rewrite Hq, <-!app_assoc.
    + intros b Hbl. rewrite Q3, Q2. assert (queue_of cs1 b = queue_of (hf_state h) b) as ->.
      { rewrite (pop_queue _ _ _ _ _ b Hx Eq), decide_False by lia. done. }
      rewrite (Hb b Hbl). case_decide; [|done]. rewrite while_app, while_pair. by rewrite (proj2 (Nat.ltb_lt _ _) Hbl).
    + intros b c' Hin. apply elem_of_app in Hin as [Hin|Hin]; [by apply Hru in Hin|]. apply elem_of_list_singleton in Hin. injection Hin as -> ->. done.
    + intros b c' Hin. apply elem_of_app in Hin as [Hin|Hin]; [by apply Hre in Hin|]. apply elem_of_list_fmap in Hin as (? & [= -> ->] & _). split; [done|lia].
    + clear -Hso Hru. induction (hf_run h) as [|y l IH]; [by repeat constructor|]. inversion Hso as [|? ? H1 H2]; subst. constructor.
      * apply IH; [|done]. intros b c' Hin. apply (Hru b c'). by right.
      * apply Forall_app. split; [done|]. constructor; [|done]. cbn. destruct y as [b c']. apply (Hru b c'). left.
Qed.
Lemma reach_hinv i me hook cs h : hook_reach U i me hook cs h → hinv cs me h.
Proof.
  induction 1 as [|h h' _ IH Hst]; [|by eapply hinv_step]. constructor; cbn [hook_start hf_at hf_state hf_run hf_rec].
  - lia.
  - by rewrite on_regs_bufs.
  - intros b. unfold queue_of. rewrite on_regs_bufs. unfold recorded_in. cbn. case_decide; apply app_nil_r.
  - intros b Hb. lia.
  - intros b c Hin. by apply elem_of_nil in Hin.
  - intros b c Hin. by apply elem_of_nil in Hin.
  - constructor.
Qed.

(** * C93 *)

(** When a flush ends, the buffers were played one after another, each command of each buffer in the order of recording; of
    the commands recorded meanwhile, which are all in the buffer of the flushing thread, exactly those recorded while later
    buffers were played are left in it. *)
Theorem C93_order i me hook cs h : hook_reach U i me hook cs h → hook_step U i me hook h = Ok None →
  StronglySorted (λ x y : nat * command, x.1 ≤ y.1) (hf_run h) ∧
  ∀ b, queue_of cs b ++ recorded_in me b (hf_rec h) = ran b (hf_run h) ++ queue_of (hf_state h) b ∧
    queue_of (hf_state h) b = if decide (me = Some b) then while (λ k, b <? k) (hf_rec h) else [].
Proof.
  intros Hr Hd. destruct (reach_hinv _ _ _ _ _ Hr) as [Ha Hl Hq Hb Hru Hre Hso]. split; [done|]. intros b. split; [done|].
  assert (hf_at h = length (cs_bufs (hf_state h))) as E.
  { unfold hook_step in Hd. destruct (cs_bufs (hf_state h) !! hf_at h) as [x|] eqn:Hx; [|apply lookup_ge_None in Hx; lia].
    destruct (cb_live x); [|done]. destruct (cb_queue x); [done|].
    destruct (run_hook _ _ _ _ _) as [? [| |]]; [|done|done]. by destruct (exec_cmd _ _ _ _ _) as [? [| |]]. }
  destruct (decide (b < hf_at h)) as [Hlt|Hge]; [by apply Hb|]. rewrite queue_none by lia. case_decide; [|done]. symmetry. apply while_none.
  intros b' c Hin. apply Hre in Hin as [? ?]. apply Nat.ltb_ge. lia.
Qed.

(** So everything recorded in a flush is executed by it if the flushing thread's buffer was registered last. *)
Theorem C93_last_partial i b hook cs h : S b = length (cs_bufs cs) → hook_reach U i (Some b) hook cs h → hook_step U i (Some b) hook h = Ok None →
  (∀ a, queue_of (hf_state h) a = []) ∧ ran b (hf_run h) = queue_of cs b ++ (hf_rec h).*2 ∧ ∀ a, a ≠ b → ran a (hf_run h) = queue_of cs a.
Proof.
  intros Hb Hr Hd. destruct (C93_order _ _ _ _ _ Hr Hd) as [_ H]. pose proof (hi_rec _ _ _ (reach_hinv _ _ _ _ _ Hr)) as Hre.
  pose proof (hi_at _ _ _ (reach_hinv _ _ _ _ _ Hr)) as Hat. pose proof (hi_len _ _ _ (reach_hinv _ _ _ _ _ Hr)) as Hlen.
  assert (∀ a, queue_of (hf_state h) a = []) as He.
  { intros a. destruct (H a) as [_ ->]. case_decide as E; [|done]. injection E as <-. apply while_none. intros b' c Hin. apply Hre in Hin as [_ Hin]. apply Nat.ltb_ge. lia. }
  split; [done|]. split.
  - destruct (H b) as [Hq _]. rewrite He, app_nil_r in Hq. unfold recorded_in in Hq. by rewrite decide_True in Hq by done.
  - intros a Ha. destruct (H a) as [Hq _]. rewrite He, app_nil_r in Hq. unfold recorded_in in Hq. rewrite decide_False in Hq by congruence.
    by rewrite app_nil_r in Hq.
Qed.

(** With components that record nothing the loops are those of Command.v: where [flush] ends well, so do they, in the same
    state. *)
Lemma play_hook_nothing i me k b q : ∀ pre rest rs rs' q' run rec, length pre = k → cb_live b = true →
  play U (cb_staging b) i q rs = (rs', q', Ok tt) →
  ∃ run', rtc (λ h h', hook_step U i me (λ _, []) h = Ok (Some h'))
    (HConf k (CState rs (pre ++ Buffer (cb_staging b) q true :: rest)) run rec)
    (HConf (S k) (CState rs' (pre ++ Buffer (cb_staging b) [] true :: rest)) run' rec) ∧ q' = [].
Proof.
  induction q as [|c q IH]; intros pre rest rs rs' q' run rec Hk Hl E; cbn [play] in E.
  - injection E as <- <-. exists run. split; [|done]. apply rtc_once. unfold hook_step. cbn [hf_at hf_state cs_bufs hf_run hf_rec].
    by rewrite list_lookup_middle.
  - destruct (exec_cmd U (cb_staging b) i c rs) as [rs1 [[]| |]] eqn:Ec; [|done|done].
    destruct (IH pre rest rs1 rs' q' (run ++ [(k, c)]) rec Hk Hl E) as (run' & H & ->). exists run'. split; [|done].
    eapply rtc_l; [|exact H]. unfold hook_step. cbn [hf_at hf_state cs_bufs cs_regs hf_run hf_rec]. rewrite list_lookup_middle by done.
    cbn [cb_live cb_queue cb_staging run_hook ret]. unfold pop_cmd. cbn [cs_regs cs_bufs]. rewrite Ec. do 2 f_equal.
    assert (alter (λ x, Buffer (cb_staging x) (tail (cb_queue x)) (cb_live x)) k (pre ++ Buffer (cb_staging b) (c :: q) true :: rest) =
      pre ++ Buffer (cb_staging b) q true :: rest) as Ea.
    { rewrite <-Hk. clear. induction pre as [|y pre IH]; [done|]. cbn. f_equal. apply IH. }
    rewrite Ea. f_equal. destruct me; [|by rewrite app_nil_r]. by rewrite drop_all, app_nil_r.
Qed.
Theorem C93_no_recording i me cs cs' : flush U i cs = (cs', Ok tt) →
  ∃ h, hook_reach U i me (λ _, []) cs h ∧ hook_step U i me (λ _, []) h = Ok None ∧ hf_state h = cs'.
Proof.
  intros E. unfold flush, bind in E. destruct (on_regs_of (call_unit U (At i OSync)) cs) as [cs1 [u| |]] eqn:Es; [|done|done].
  destruct (play_all U i (cs_bufs cs1) (cs_regs cs1)) as [[rs bs] o] eqn:Ep. injection E as <- ->.
  assert (∀ bs pre rs rs' bs' run, play_all U i bs rs = (rs', bs', Ok tt) →
    ∃ run', rtc (λ h h', hook_step U i me (λ _, []) h = Ok (Some h')) (HConf (length pre) (CState rs (pre ++ bs)) run [])
      (HConf (length (pre ++ bs')) (CState rs' (pre ++ bs')) run' [])) as Hall.
  { clear. induction bs as [|b bs IH]; intros pre rs rs' bs' run E; cbn [play_all] in E.
    - injection E as <- <-. exists run. rewrite app_nil_r. constructor.
    - destruct (cb_live b) eqn:Hl; [|done]. destruct (play U (cb_staging b) i (cb_queue b) rs) as [[rs1 q] [[]| |]] eqn:E1; [|done|done].
      destruct (play_all U i bs rs1) as [[rs2 bs2] o] eqn:E2. injection E as -> <- ->.
      destruct (play_hook_nothing i me (length pre) b (cb_queue b) pre bs rs rs1 q run [] eq_refl Hl E1) as (run1 & H1 & ->).
      destruct (IH (pre ++ [Buffer (cb_staging b) [] true]) rs1 rs' bs2 run1 E2) as (run2 & H2). exists run2.
      rewrite <-!app_assoc in H2. cbn [app] in H2. eapply rtc_transitive; [|exact H2].
      destruct b as [stg q l]. cbn in Hl |- *. subst l. rewrite app_length. cbn [length]. rewrite Nat.add_1_r. exact H1. }
  destruct (Hall _ [] _ _ _ [] Ep) as (run & H). cbn [app length] in H. exists (HConf (length bs) (CState rs bs) run []). split; [|split; [|done]].
  - assert (∀ h h', rtc (λ h h', hook_step U i me (λ _, []) h = Ok (Some h')) h h' → hook_reach U i me (λ _, []) cs h → hook_reach U i me (λ _, []) cs h') as Hr.
    { induction 1; [done|]. intros. apply IHrtc. by econstructor. }
    eapply Hr; [exact H|]. assert (hook_start U i cs = HConf 0 (CState (cs_regs cs1) (cs_bufs cs1)) [] []) as <-; [|constructor].
    unfold hook_start. rewrite Es. by destruct cs1.
  - unfold hook_step. cbn. by rewrite lookup_ge_None_2.
Qed.
End props.

(** * Examples and refutations *)
Fixpoint hook_play (U : universe) (i : nat) (me : option nat) (hook : command → list crec) (n : nat) (h : hconf) : hconf :=
  match n with
  | 0 => h
  | S n => match hook_step U i me hook h with Ok (Some h') => hook_play U i me hook n h' | _ => h end
  end.
Lemma hook_play_reach U i me hook cs n : ∀ h, hook_reach U i me hook cs h → hook_reach U i me hook cs (hook_play U i me hook n h).
Proof.
  induction n as [|n IH]; intros h Hr; [done|]. cbn [hook_play]. destruct (hook_step U i me hook h) as [[h'|]| |] eqn:E; [|done|done|done].
  apply IH. by econstructor.
Qed.
Definition play93 (me : option nat) (hook : command → list crec) (cs : cstate) : hconf := hook_play U0 0 me hook 20 (hook_start U0 0 cs).
Lemma play93_reach me hook cs : hook_reach U0 0 me hook cs (play93 me hook cs).
Proof. apply hook_play_reach. constructor. Qed.
Definition rec93 (b : nat) (k : crec) : cstate := (record1 U0 0 b k cs70).1.
Lemma pair93 {A B} (p : A * B) y : p.2 = y → p = (p.1, y).
Proof. destruct p. cbn. by intros ->. Qed.

(** A component's destructor records the destruction of another entity.  If the flushing thread's buffer comes before that
    of the thread that asked for the first one, the flush leaves the second entity alive and the command queued. *)
Definition chain93 (c : command) : list crec := match c with CmdDestroy h => if decide (h = h1) then [KDestroy h0] else [] | _ => [] end.
Definition end93 (me : option nat) (b : nat) : hconf := play93 me chain93 (rec93 b (KDestroy h1)).
Example C93_example : hook_reach U0 0 (Some 1) chain93 (rec93 1 (KDestroy h1)) (end93 (Some 1) 1) ∧
  hook_step U0 0 (Some 1) chain93 (end93 (Some 1) 1) = Ok None ∧ hf_rec (end93 (Some 1) 1) = [(1, CmdDestroy h0)] ∧
  hf_run (end93 (Some 1) 1) = [(1, CmdDestroy h1); (1, CmdDestroy h0)] ∧
  (λ r, (rg_alive r h0, rg_alive r h1)) <$> cs_regs (hf_state (end93 (Some 1) 1)) !! 0 = Some (false, false).
Proof.
  split; [apply play93_reach|]. split; [vm_compute; exact eq_refl|]. split; [vm_compute; exact eq_refl|].
  split; [vm_compute; exact eq_refl|]. vm_compute. exact eq_refl.
Qed.
Theorem C93_late_refuted : ∃ cs me hook h, ready U0 2 0 cs70 ss70 s70 ∧ record1 U0 0 1 (KDestroy h1) cs70 = (cs, Ok h1) ∧
  hook_reach U0 0 me hook cs h ∧ hook_step U0 0 me hook h = Ok None ∧ hf_rec h = [(1, CmdDestroy h0)] ∧
  queue_of (hf_state h) 0 = [CmdDestroy h0] ∧ (λ r, (rg_alive r h0, rg_alive r h1)) <$> cs_regs (hf_state h) !! 0 = Some (true, false).
Proof.
  exists (rec93 1 (KDestroy h1)), (Some 0), chain93, (end93 (Some 0) 1). split; [apply ready70|].
  split; [apply pair93; vm_compute; exact eq_refl|].
  split; [apply play93_reach|]. split; [vm_compute; exact eq_refl|]. split; [vm_compute; exact eq_refl|]. split; vm_compute; exact eq_refl.
Qed.

(** The thread that flushes has never used a command_writer: the first one, in the destructor, locks the mutex that the
    thread holds. *)
Theorem C93_first_refuted : ∃ cs hook, ready U0 2 0 cs70 ss70 s70 ∧ record1 U0 0 1 (KDestroy h1) cs70 = (cs, Ok h1) ∧
  ∃ h, hook_reach U0 0 None hook cs h ∧ hook_step U0 0 None hook h = UB.
Proof.
  exists (rec93 1 (KDestroy h1)), chain93. split; [apply ready70|].
  split; [apply pair93; vm_compute; exact eq_refl|].
  exists (end93 None 1). split; [apply play93_reach|]. vm_compute. exact eq_refl.
Qed.

(** A destructor creates an entity through a command_writer, on the only thread.  The flush executes the command, but the
    entity is not alive, neither behind it nor behind the next flush; the next entity that is created is dead from the
    start, and its creation brings the other one to life. *)
Definition spawn93 (c : command) : list crec := match c with CmdDestroy _ => [KCreate [(1%N, Val 9)]] | _ => [] end.
Definition endspawn93 : hconf := play93 (Some 0) spawn93 (rec93 0 (KDestroy h1)).
Definition next93 : cstate := (flush U0 0 (hf_state endspawn93)).1.
Definition created93 : list registry * outcome rres := run_sop U0 (At 0 (OCreate [(1%N, Val 4)])) (cs_regs next93).
Lemma out93 : (flush U0 0 (hf_state endspawn93)).2 = Ok tt. Proof. vm_compute. exact eq_refl. Qed.
Lemma flush93 : flush U0 0 (hf_state endspawn93) = (next93, Ok tt).
Proof. unfold next93. rewrite <-out93. apply surjective_pairing. Qed.
Lemma out93' : created93.2 = Ok (RHandle (Handle 3 0)). Proof. vm_compute. exact eq_refl. Qed.
Lemma create93 : run_sop U0 (At 0 (OCreate [(1%N, Val 4)])) (cs_regs next93) = (created93.1, Ok (RHandle (Handle 3 0))).
Proof. rewrite <-out93'. unfold created93. apply surjective_pairing. Qed.
Lemma out93'' : (record1 U0 0 0 (KDestroy h1) cs70).2 = Ok h1. Proof. vm_compute. exact eq_refl. Qed.
Lemma asked93 : record1 U0 0 0 (KDestroy h1) cs70 = (rec93 0 (KDestroy h1), Ok h1).
Proof. unfold rec93. rewrite <-out93''. apply surjective_pairing. Qed.
Theorem C93_spawn_refuted : ∃ cs hook h cs2 rs3 g, ready U0 2 0 cs70 ss70 s70 ∧ record1 U0 0 0 (KDestroy h1) cs70 = (cs, Ok h1) ∧
  hook_reach U0 0 (Some 0) hook cs h ∧ hook_step U0 0 (Some 0) hook h = Ok None ∧
  (∃ st, hf_run h = [(0, CmdDestroy h1); (0, CmdCreate st h2)]) ∧
  (λ r, rg_alive r h2) <$> cs_regs (hf_state h) !! 0 = Some false ∧
  flush U0 0 (hf_state h) = (cs2, Ok tt) ∧ (λ r, rg_alive r h2) <$> cs_regs cs2 !! 0 = Some false ∧
  run_sop U0 (At 0 (OCreate [(1%N, Val 4)])) (cs_regs cs2) = (rs3, Ok (RHandle g)) ∧
  (λ r, (rg_alive r g, rg_alive r h2)) <$> rs3 !! 0 = Some (false, true).
Proof.
  exists (rec93 0 (KDestroy h1)), spawn93, endspawn93, next93, created93.1, (Handle 3 0). split; [apply ready70|].
  split; [exact asked93|].
  split; [apply play93_reach|]. split; [vm_compute; exact eq_refl|]. split; [exists (Handle 0 0); vm_compute; exact eq_refl|].
  split; [vm_compute; exact eq_refl|].
  split; [exact flush93|].
  split; [vm_compute; exact eq_refl|].
  split; [exact create93|].
  vm_compute. exact eq_refl.
Qed.

Print Assumptions C93_order.
Print Assumptions C93_last_partial.
Print Assumptions C93_no_recording.
Print Assumptions C93_late_refuted.
Print Assumptions C93_first_refuted.
Print Assumptions C93_spawn_refuted.
