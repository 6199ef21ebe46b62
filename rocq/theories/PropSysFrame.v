(** C71: one run of a schedule whose systems go over views and record commands. *)
From Verif Require Import Base Bits Layout PropLayout HandlePool HandleSpec HandlePoolProofs SparseMap SparseMapProofs
  HashTable HashTableProofs HashTableMap Bitset BitsetProofs ComponentSet ComponentSetProofs
  Chunk ChunkProofs Archetype ArchetypeProofs Registry RegistryStore RegistryProofs View ViewProofs RegSpec RegSpecProofs
  RegObs RegRun PropRegistry PropView PropStorage ParallelFor ParEach ParEachProofs Access Stage PropStage
  Command CommandSpec CommandProofs PropCommand SysCommand SysCommandProofs PropSysCommand
  SystemRun SystemRunProofs PropSystemRun SysFrame SysFrameProofs.

Section props.
Context (U : universe).
Hypothesis HU : u_wf U.

(** The number of calls of each, single and par_each that a body makes when it runs alone. *)
Fixpoint prog_calls (p : sprog) : M registry nat :=
  match p with
  | PRet => ret 0
  | PEach rq f k => let! log := rg_each U rq f in let! v := prog_calls (k log) in ret (S v)
  | PSingle rq k => let! x := rg_single U rq in let! v := prog_calls (k x) in ret (S v)
  | PPar _ rq f k => let! _ := rg_each U rq (λ _, f) in let! v := prog_calls k in ret (S v)
  | PCmd _ k => prog_calls k
  end.
Fixpoint progs_calls (ps : list sprog) : M registry nat :=
  match ps with
  | [] => ret 0
  | p :: ps => let! v := prog_calls p in let! v' := progs_calls ps in ret (v + v')
  end.

Lemma prog_calls_ok p : ∀ out r r' out', run_prog U p out r = (r', Ok out') → ∃ v, prog_calls p r = (r', Ok v).
Proof.
  induction p as [|rq f k IH|rq k IH|nw rq f k IH|c k IH]; intros out r r' out' E; cbn [run_prog prog_calls] in *.
  - injection E as -> <-. by exists 0.
  - unfold bind in *. destruct (rg_each U rq f r) as [r1 [log|?|]]; [|done|done]. destruct (IH _ _ _ _ _ E) as [v ->]. by exists (S v).
  - unfold bind in *. destruct (rg_single U rq r) as [r1 [x|?|]]; [|done|done]. destruct (IH _ _ _ _ _ E) as [v ->]. by exists (S v).
  - unfold bind in *. destruct (rg_each U rq (λ _, f) r) as [r1 [log|?|]]; [|done|done]. destruct (IH _ _ _ _ E) as [v ->]. by exists (S v).
  - by eapply IH.
Qed.
Lemma progs_calls_ok ps : ∀ r r' outs, run_progs U ps r = (r', Ok outs) → ∃ v, progs_calls ps r = (r', Ok v).
Proof.
  induction ps as [|p ps IH]; intros r r' outs E; cbn [run_progs progs_calls] in *; [injection E as -> <-; by exists 0|].
  unfold bind in *. destruct (run_prog U p [] r) as [r1 [out|?|]] eqn:E1; [|done|done]. destruct (run_progs U ps r1) as [r2 [os|?|]] eqn:E2; [|done|done].
  injection E as -> <-. destruct (prog_calls_ok _ _ _ _ _ E1) as [v ->]. destruct (IH _ _ _ E2) as [v' ->]. by exists (v + v').
Qed.

(** * The program state behind calls on views *)
Definition put_reg (i : nat) (cs : cstate) (r : registry) : cstate := CState (<[i := r]> (cs_regs cs)) (cs_bufs cs).

Lemma ready_step n i cs ss s r op r' x :
  ready U n i cs ss s → below_wrap (2 * S n) → cs_regs cs !! i = Some r → permitted U s op → run_rop U op r = (r', Ok x) →
  (∀ s' o, rnext U s op o s' → sr_issued s' = sr_issued s ∧ sr_failed s' = sr_failed s) →
  ∃ ss' s', ready U (S n) i (put_reg i cs r') ss' s' ∧ sr_issued s' = sr_issued s ∧ sr_failed s' = sr_failed s.
Proof.
  intros [Hr Hrec Hb Hnd] Hbw Hi Hper E Hop.
  assert (run_sop U (At i op) (cs_regs cs) = (<[i := r']> (cs_regs cs), Ok x)) as Erun.
  { cbn [run_sop]. unfold on_reg. by rewrite Hi, E. }
  destruct (reach_step U HU n _ ss (At i op) _ _ Hr Hbw ltac:(by exists s) Erun) as [(ss' & (s0 & s' & Hs0 & Hn & ->) & Hr' & _)|[? _]]; [|done].
  rewrite Hrec in Hs0. injection Hs0 as <-. destruct (Hop _ _ Hn) as [H1 H2]. exists (<[i := s']> ss), s'. split; [|done].
  split; [done|by eapply list_lookup_insert, lookup_lt_Some| |done].
  intros b y Hy. destruct (Hb b y Hy) as (? & ? & Hne & Ht). split; [done|]. split; [done|]. split; [done|]. by rewrite list_lookup_insert_ne.
Qed.
Lemma ready_each n i cs ss s r rq f r' log : view_ok U rq →
  ready U n i cs ss s → below_wrap (2 * S n) → cs_regs cs !! i = Some r → rg_each U rq f r = (r', Ok log) →
  ∃ ss' s', ready U (S n) i (put_reg i cs r') ss' s' ∧ sr_issued s' = sr_issued s ∧ sr_failed s' = sr_failed s.
Proof.
  intros Hv Hr Hbw Hi E. eapply (ready_step n i cs ss s r (OEach rq f)); [done|done|done|exact Hv| |].
  - cbn [run_rop]. unfold mapM. by rewrite E.
  - cbn [rnext]. by intros s' o (es & w' & _ & _ & _ & ->).
Qed.
Lemma ready_single n i cs ss s r rq r' x : view_ok U rq →
  ready U n i cs ss s → below_wrap (2 * S n) → cs_regs cs !! i = Some r → rg_single U rq r = (r', Ok x) →
  ∃ ss' s', ready U (S n) i (put_reg i cs r') ss' s' ∧ sr_issued s' = sr_issued s ∧ sr_failed s' = sr_failed s.
Proof.
  intros Hv Hr Hbw Hi E. eapply (ready_step n i cs ss s r (OSingle rq)); [done|done|done|exact Hv| |].
  - cbn [run_rop]. unfold mapM. by rewrite E.
  - cbn [rnext]. by intros s' o (-> & _).
Qed.
Lemma put_put i cs r r' : put_reg i (put_reg i cs r) r' = put_reg i cs r'.
Proof. unfold put_reg. cbn. by rewrite list_insert_insert. Qed.
Lemma put_at i cs r r' : cs_regs cs !! i = Some r → cs_regs (put_reg i cs r') !! i = Some r'.
Proof. intros Hi. cbn. by eapply list_lookup_insert, lookup_lt_Some. Qed.

Lemma prog_ready vs p : Forall (view_ok U) vs → prog_ok vs p → ∀ out n i cs ss s r r' out' v,
  ready U n i cs ss s → cs_regs cs !! i = Some r → run_prog U p out r = (r', Ok out') → prog_calls p r = (r', Ok v) → below_wrap (2 * (n + v)) →
  ∃ ss' s', ready U (n + v) i (put_reg i cs r') ss' s' ∧ sr_issued s' = sr_issued s ∧ sr_failed s' = sr_failed s.
Proof.
  intros Hvs. pose proof (proj1 (Forall_forall _ _) Hvs) as Hv. induction p as [|rq f k IH|rq k IH|nw rq f k IH|c k IH]; intros Hp out n i cs ss s r r' out' v Hr Hi E Ec Hbw; cbn [run_prog prog_calls prog_ok] in *.
  - injection E as -> <-. injection Ec as <-. rewrite Nat.add_0_r. exists ss, s. split; [|done]. unfold put_reg. rewrite list_insert_id by done. by destruct cs.
  - destruct Hp as [Hin Hk]. unfold bind in *. destruct (rg_each U rq f r) as [r1 [log|?|]] eqn:E1; [|done|done].
    destruct (prog_calls (k log) r1) as [r2 [v1|?|]] eqn:E2; [|done|done]. injection Ec as -> <-. unfold below_wrap in *.
    destruct (ready_each n i cs ss s r rq f r1 log (Hv _ Hin) Hr ltac:(unfold below_wrap; lia) Hi E1) as (ss1 & s1 & Hr1 & I1 & F1).
    destruct (IH log (Hk log) out (S n) i _ ss1 s1 r1 r' out' v1 Hr1 (put_at _ _ _ _ Hi) E E2 ltac:(unfold below_wrap; lia)) as (ss2 & s2 & Hr2 & I2 & F2).
    rewrite put_put in Hr2. exists ss2, s2. rewrite Nat.add_succ_r. split; [done|]. split; congruence.
  - destruct Hp as [Hin Hk]. unfold bind in *. destruct (rg_single U rq r) as [r1 [x|?|]] eqn:E1; [|done|done].
    destruct (prog_calls (k x) r1) as [r2 [v1|?|]] eqn:E2; [|done|done]. injection Ec as -> <-. unfold below_wrap in *.
    destruct (ready_single n i cs ss s r rq r1 x (Hv _ Hin) Hr ltac:(unfold below_wrap; lia) Hi E1) as (ss1 & s1 & Hr1 & I1 & F1).
    destruct (IH x (Hk x) out (S n) i _ ss1 s1 r1 r' out' v1 Hr1 (put_at _ _ _ _ Hi) E E2 ltac:(unfold below_wrap; lia)) as (ss2 & s2 & Hr2 & I2 & F2).
    rewrite put_put in Hr2. exists ss2, s2. rewrite Nat.add_succ_r. split; [done|]. split; congruence.
  - destruct Hp as (_ & Hin & Hk). unfold bind in *. destruct (rg_each U rq (λ _, f) r) as [r1 [log|?|]] eqn:E1; [|done|done].
    destruct (prog_calls k r1) as [r2 [v1|?|]] eqn:E2; [|done|done]. injection Ec as -> <-. unfold below_wrap in *.
    destruct (ready_each n i cs ss s r rq (λ _, f) r1 log (Hv _ Hin) Hr ltac:(unfold below_wrap; lia) Hi E1) as (ss1 & s1 & Hr1 & I1 & F1).
    destruct (IH Hk out (S n) i _ ss1 s1 r1 r' out' v1 Hr1 (put_at _ _ _ _ Hi) E E2 ltac:(unfold below_wrap; lia)) as (ss2 & s2 & Hr2 & I2 & F2).
    rewrite put_put in Hr2. exists ss2, s2. rewrite Nat.add_succ_r. split; [done|]. split; congruence.
  - by eapply IH.
Qed.
Lemma progs_ready vss ps : Forall2 prog_ok vss ps → Forall (Forall (view_ok U)) vss → ∀ n i cs ss s r r' outs v,
  ready U n i cs ss s → cs_regs cs !! i = Some r → run_progs U ps r = (r', Ok outs) → progs_calls ps r = (r', Ok v) → below_wrap (2 * (n + v)) →
  ∃ ss' s', ready U (n + v) i (put_reg i cs r') ss' s' ∧ sr_issued s' = sr_issued s ∧ sr_failed s' = sr_failed s.
Proof.
  induction 1 as [|vs p vss ps Hp _ IH]; intros Hvss n i cs ss s r r' outs v Hr Hi E Ec Hbw; cbn [run_progs progs_calls] in *.
  - injection E as -> <-. injection Ec as <-. rewrite Nat.add_0_r. exists ss, s. split; [|done]. unfold put_reg. rewrite list_insert_id by done. by destruct cs.
  - apply Forall_cons in Hvss as [Hvs Hvss]. unfold bind in *. destruct (run_prog U p [] r) as [r1 [out|?|]] eqn:E1; [|done|done].
    destruct (run_progs U ps r1) as [r2 [os|?|]] eqn:E2; [|done|done]. injection E as -> <-.
    destruct (prog_calls_ok _ _ _ _ _ E1) as [v1 Ec1]. rewrite Ec1 in Ec. destruct (progs_calls_ok _ _ _ _ E2) as [v2 Ec2]. rewrite Ec2 in Ec. injection Ec as <-.
    destruct (prog_ready vs p Hvs Hp [] n i cs ss s r r1 out v1 Hr Hi E1 Ec1 ltac:(unfold below_wrap in *; lia)) as (ss1 & s1 & Hr1 & I1 & F1).
    destruct (IH Hvss (n + v1) i _ ss1 s1 r1 r' os v2 Hr1 (put_at _ _ _ _ Hi) E2 Ec2 ltac:(unfold below_wrap in *; lia)) as (ss2 & s2 & Hr2 & I2 & F2).
    rewrite put_put in Hr2. exists ss2, s2. rewrite Nat.add_assoc. split; [done|]. split; congruence.
Qed.

(** * A run of the batches is a run on the views, then a run of the recorded calls *)
Context (body : sysm → sprog).
Notation progs bs := ((λ b : list sysm, body <$> b) <$> bs).

(** The batches of the stages of a schedule without main-thread systems. *)
Definition stages_of (stages : list (list sysm)) (bs : list (list sysm)) : Prop :=
  ∃ es, Forall2 (λ l e, ∃ st, stage_create sys_pat (Stage l []) = Some (e, st)) stages es ∧ bs = concat (se_batches <$> es).

Lemma stages_batches stages bs : stages_of stages bs → Forall (Forall (well_behaved U body)) stages →
  (∀ b, b ∈ bs → ∀ (i j : nat) s1 s2, i < j → b !! i = Some s1 → b !! j = Some s2 → ¬ sys_conflict s1 s2) ∧
  (∀ b, b ∈ bs → Forall (well_behaved U body) b).
Proof.
  intros (es & H & ->) Hwb. induction H as [|l e stages es [st He] _ IH]; [split; intros b Hb; by apply elem_of_nil in Hb|].
  apply Forall_cons in Hwb as [Hl Hwb]. destruct (IH Hwb) as [I1 I2].
  destruct (C31_batches l []) as (bs & He' & _ & Hbs). rewrite He in He'. injection He' as -> _. cbn [fmap list_fmap concat se_batches].
  split; intros b [Hb|Hb]%elem_of_app.
  - by apply Hbs.
  - by apply I1.
  - eapply sub_forall; [apply (Hbs b Hb)|done].
  - by apply I2.
Qed.

Lemma frame_split n i cs ss s r stages bs ts cs1 : ready U n i cs ss s → below_wrap (2 * n) → sr_failed s = false → cs_regs cs !! i = Some r →
  stages_of stages bs → Forall (Forall (well_behaved U body)) stages → batches_run U i (progs bs) cs ts cs1 →
  ∃ scripts r1 bf, run_progs U (body <$> concat bs) r = (r1, Ok scripts) ∧ (λ t, out_of (jt_th t)) <$> ts = scripts ∧
    (∃ p, cs_regs cs1 !! i = Some (rg_set_pool r1 p)) ∧
    (∀ j, j < length scripts → bf j < length (cs_bufs cs)) ∧
    rtc (rec_step U i bf) (rec_start scripts (put_reg i cs r1)) (SConf ((λ t, STask [] (jt_done t)) <$> ts) cs1).
Proof.
  intros Hr Hbw Hf Hi Hst Hwb Hrun. pose proof Hr as [Hreach Hrec Hb _].
  destruct (reached_ri U HU n r s ltac:(by exists (cs_regs cs), ss, i) Hbw) as (iss & hp & [_ H Hnn]). specialize (Hnn Hf).
  destruct (stages_batches _ _ Hst Hwb) as [Hnc Hwb'].
  destruct (batches_det U HU body bs _ _ _ _ _ Hnc Hwb' r hp _ Hnn H) as (scripts & r1 & E & Hdet).
  destruct (batches_split U i (progs bs) cs ts cs1 r Hrun) as (scr & r' & bf & Hi' & Hlb & Ho & Hl & Hbf & Hv & Hsp); [|done|].
  { intros b x Hx. by destruct (Hb b x Hx) as (_ & _ & ? & _). }
  specialize (Hv (rg_pool r)). rewrite set_pool_id in Hv. apply Hdet in Hv as [-> Er].
  exists scripts, r1, bf. split; [done|]. split; [done|]. split; [|split; [done|]].
  - exists (rg_pool r'). rewrite Hi', <- Er. by destruct r'.
  - specialize (Hsp r1). assert (swap i r1 cs = put_reg i cs r1) as E1.
    { unfold swap, put_reg. f_equal. apply list_eq. intros a. destruct (decide (i = a)) as [<-|N].
      - rewrite list_lookup_alter, Hi, list_lookup_insert by (by eapply lookup_lt_Some). cbn. rewrite <- Er. done.
      - by rewrite list_lookup_alter_ne, list_lookup_insert_ne. }
    assert (swap i r1 cs1 = cs1) as E2.
    { unfold swap. destruct cs1 as [rs1 bs1]. cbn [cs_regs cs_bufs] in *. f_equal. apply list_eq. intros a. destruct (decide (i = a)) as [<-|N].
      - rewrite list_lookup_alter, Hi'. cbn. rewrite <- Er. by destruct r'.
      - by rewrite list_lookup_alter_ne. }
    rewrite E1, E2 in Hsp. exact Hsp.
Qed.

Lemma elem_concat {A} (b : A) l ls : b ∈ l → l ∈ ls → b ∈ concat ls.
Proof. rewrite !elem_of_list_In. intros. apply in_concat. eauto. Qed.
Lemma concat_progs (bs : list (list sysm)) : concat (progs bs) = body <$> concat bs.
Proof. induction bs as [|b bs IH]; [done|]. cbn [fmap list_fmap concat]. by rewrite fmap_app, IH. Qed.
Lemma bs_views bs : (∀ b, b ∈ bs → Forall (well_behaved U body) b) → Forall (well_behaved U body) (concat bs).
Proof. intros H. induction bs as [|b bs IH]; [constructor|]. apply Forall_app. split; [apply H; left|apply IH; intros b' ?; apply H; by right]. Qed.

(** However the tasks of the batches interleave and on whichever threads they run: behind them the storage of the
    registry is what the bodies leave that run one after another (without the effect of the commands, which is still
    queued), and every body has made the same calls of its command_writer. *)
Theorem C71_views n i cs ss s r stages bs ts cs1 : ready U n i cs ss s → below_wrap (2 * n) → sr_failed s = false →
  cs_regs cs !! i = Some r → stages_of stages bs → Forall (Forall (well_behaved U body)) stages →
  batches_run U i (progs bs) cs ts cs1 →
  ∃ r1 scripts, run_progs U (body <$> concat bs) r = (r1, Ok scripts) ∧ (λ t, out_of (jt_th t)) <$> ts = scripts ∧
    ∃ p, cs_regs cs1 !! i = Some (rg_set_pool r1 p).
Proof.
  intros Hr Hbw Hf Hi Hst Hwb Hrun.
  destruct (frame_split _ _ _ _ _ _ _ _ _ _ Hr Hbw Hf Hi Hst Hwb Hrun) as (scripts & r1 & bf & E & Ho & Hp & _). exists r1, scripts. done.
Qed.

(** A schedule runs twice from the same state: on other threads, in another order.  [scripts] are the calls that its
    systems make on their command_writers, and [v] is the number of calls on views, when they run one after another.  If no system changes through
    commands an entity, known before, that another one uses, and the first run succeeds, so does the second, unless a
    layout is refused or behaviour is undefined as in C17 and C18; and both registries hold the same
    entities, up to the choice of the new handles. *)
Theorem C71_frame_partial n i cs ss s r stages bs scripts r1 v ts1 ts2 cs1 cs2 o :
  ready U n i cs ss s → sr_failed s = false → cs_regs cs !! i = Some r →
  stages_of stages bs → Forall (Forall (well_behaved U body)) stages →
  run_progs U (body <$> concat bs) r = (r1, Ok scripts) → progs_calls (body <$> concat bs) r = (r1, Ok v) →
  below_wrap (2 * (n + v + 5 * S (sum_list (length <$> scripts)))) →
  Forall (Forall (scmd_ok U (sr_issued s))) scripts → independent scripts →
  frame_run U i (progs bs) cs ts1 cs1 (Ok tt) → frame_run U i (progs bs) cs ts2 cs2 o →
  let A := sr_issued s ++ concat ((λ t, made (jt_done t)) <$> ts1) in
  o = Throw InsufficientChunkSize ∨ o = UB ∧ stuck U (cs_regs cs2) ∨
  o = Ok tt ∧ ∃ f, inj_on A f ∧ (∀ h, h ∈ sr_issued s → f h = h) ∧
    Forall2 (λ t1 t2, Forall2 (ren f) (jt_done t1) (jt_done t2)) ts1 ts2 ∧
    ∃ r1' r2', cs_regs cs1 !! i = Some r1' ∧ cs_regs cs2 !! i = Some r2' ∧ same_entities U A f r1' r2'.
Proof.
  intros Hr Hf Hi Hst Hwb E Ev Hbw Hok Hind (c1 & Hrun1 & Hfl1) (c2 & Hrun2 & Hfl2) A.
  assert (below_wrap (2 * n)) as Hbwn by (unfold below_wrap in *; lia).
  destruct (frame_split _ _ _ _ _ _ _ _ _ _ Hr Hbwn Hf Hi Hst Hwb Hrun1) as (sc1 & x1 & bf1 & E1 & Ho1 & _ & Hbf1 & Hsp1).
  destruct (frame_split _ _ _ _ _ _ _ _ _ _ Hr Hbwn Hf Hi Hst Hwb Hrun2) as (sc2 & x2 & bf2 & E2 & Ho2 & _ & Hbf2 & Hsp2).
  rewrite E in E1, E2. injection E1 as <- <-. injection E2 as <- <-.
  destruct (stages_batches _ _ Hst Hwb) as [_ Hwb']. apply bs_views in Hwb'.
  destruct (progs_ready _ _ (batch_progs U body _ Hwb') (batch_views U body _ Hwb') n i cs ss s r r1 scripts v Hr Hi E Ev ltac:(unfold below_wrap in *; lia)) as (ss' & s' & Hr' & Ei & _).
  rewrite <- Ei in Hok.
  pose proof (C70_independent_partial U HU (n + v) i (put_reg i cs r1) ss' s' scripts bf1 bf2
    (SConf ((λ t, STask [] (jt_done t)) <$> ts1) c1) (SConf ((λ t, STask [] (jt_done t)) <$> ts2) c2) cs1 cs2 o
    Hr' Hbw Hok Hind (λ j Hj, conj (Hbf1 j Hj) (Hbf2 j Hj))) as H.
  cbn zeta in H. rewrite Ei in H. cbn [sc_tasks] in H. rewrite <- list_fmap_compose in H.
  assert (recorded U i bf1 scripts (put_reg i cs r1) (SConf ((λ t, STask [] (jt_done t)) <$> ts1) c1) cs1 (Ok tt)) as R1.
  { split; [exact Hsp1|]. split; [|exact Hfl1]. by apply Forall_fmap, Forall_true. }
  assert (recorded U i bf2 scripts (put_reg i cs r1) (SConf ((λ t, STask [] (jt_done t)) <$> ts2) c2) cs2 o) as R2.
  { split; [exact Hsp2|]. split; [|exact Hfl2]. by apply Forall_fmap, Forall_true. }
  destruct (H R1 R2) as [H1|[H1|(-> & f & Hinj & Hid & Hren & Hreg)]]; [by left|right; by left|]. right. right. split; [done|].
  exists f. split; [done|]. split; [done|]. split; [|exact Hreg]. clear -Hren. revert ts2 Hren.
  induction ts1 as [|t1 ts1 IH]; intros [|t2 ts2] Hren; inversion Hren; subst; constructor; auto.
Qed.

(** The tasks of a batch make a bounded number of steps, and no step on a view is undefined. *)
Theorem C71_batch n i cs ss s r stages bs b bf k c : ready U n i cs ss s → below_wrap (2 * n) → sr_failed s = false →
  cs_regs cs !! i = Some r → stages_of stages bs → Forall (Forall (well_behaved U body)) stages → b ∈ bs →
  nsteps (j_step U i bf) k (j_start (body <$> b) cs) c →
  (∃ bound, ∀ bf k c, nsteps (j_step U i bf) k (j_start (body <$> b) cs) c → k ≤ bound) ∧
  ∃ rc, cs_regs (jc_state c) !! i = Some rc ∧
    ∀ (j a : nat) x dn m, jc_tasks c !! j = Some (JTask x dn) → th_step U a x = Some m → ∃ r' x', m rc = (r', Ok x').
Proof.
  intros Hr Hbw Hf Hi Hst Hwb Hb Hrun. pose proof Hr as [Hreach Hrec Hbufs _].
  destruct (reached_ri U HU n r s ltac:(by exists (cs_regs cs), ss, i) Hbw) as (iss & hp & [_ H Hnn]). specialize (Hnn Hf).
  destruct (stages_batches _ _ Hst Hwb) as [Hnc Hwb'].
  destruct (batch_spec U HU _ _ _ _ _ r hp _ H Hnn _ _ (batch_views U body b (Hwb' b Hb)) (batch_sep body b (Hnc b Hb)) (batch_progs U body b (Hwb' b Hb))) as (outs & r' & bound & E & _ & Hbd & Hall).
  assert (stg_ok i cs) as Hs. { intros b' x Hx. by destruct (Hbufs b' x Hx) as (_ & _ & ? & _). }
  assert (∀ bf k c, nsteps (j_step U i bf) k (j_start (body <$> b) cs) c → ∃ rc, cs_regs (jc_state c) !! i = Some rc ∧
    nsteps (b_run U) k (b_start (body <$> b) r) (BConf (jt_th <$> jc_tasks c) (rg_set_pool rc (rg_pool r)))) as Hv.
  { intros bf' k' c' Hc. destruct (batch_split U i bf' k' _ c' r Hc Hs Hi) as (rc & Hrc & _ & _ & _ & Hv & _). exists rc. split; [done|].
    specialize (Hv (rg_pool r)). rewrite set_pool_id in Hv. cbn [j_start jc_tasks] in Hv. rewrite <- list_fmap_compose in Hv. exact Hv. }
  split; [exists bound; intros bf' k' c' Hc; destruct (Hv _ _ _ Hc) as (rc & _ & Hn); by eapply Hbd|].
  destruct (Hv _ _ _ Hrun) as (rc & Hrc & Hn). exists rc. split; [done|]. intros j a x dn m Hj Hm.
  destruct (Hall _ ltac:(apply rtc_nsteps; by exists k)) as (_ & Hok & _).
  destruct (Hok j a x m) as (r2 & x' & Em); [cbn; by rewrite list_lookup_fmap, Hj|done|]. cbn [bc_reg] in Em.
  rewrite (pf_th_step U _ _ _ Hm) in Em. destruct (m rc) as [r3 o3]. cbn in Em. injection Em as _ ->. eauto.
Qed.
End props.

(** * Examples *)

(** The steps of the tasks of a batch in a given order; inside of par_each those of its first task. *)
Fixpoint j_play (U : universe) (i : nat) (bf : nat → nat) (sched : list nat) (c : jconf) : option jconf :=
  match sched with
  | [] => Some c
  | j :: sched =>
      match jc_tasks c !! j with
      | Some (JTask (TAt (PCmd a p) out) dn) =>
          match inst (made dn) a with
          | Some k =>
              match record1 U i (bf j) k (jc_state c) with
              | (cs', Ok g) => j_play U i bf sched (JConf (<[j := JTask (TAt p (out ++ [a])) (dn ++ [(k, g)])]> (jc_tasks c)) cs')
              | _ => None
              end
          | None => None
          end
      | Some (JTask x dn) =>
          match th_step U 0 x, cs_regs (jc_state c) !! i with
          | Some m, Some r =>
              match m r with
              | (r', Ok x') => j_play U i bf sched (JConf (<[j := JTask x' dn]> (jc_tasks c)) (CState (<[i := r']> (cs_regs (jc_state c))) (cs_bufs (jc_state c))))
              | _ => None
              end
          | _, _ => None
          end
      | None => None
      end
  end.
Lemma j_play_run U i bf sched : ∀ c c', j_play U i bf sched c = Some c' → rtc (j_step U i bf) c c'.
Proof.
  induction sched as [|j sched IH]; intros c c' E; [injection E as <-; constructor|]. cbn [j_play] in E.
  destruct (jc_tasks c !! j) as [[x dn]|] eqn:Hj; [|done]. destruct (at_cmd x) eqn:Hc.
  - destruct x as [[|rq f k|rq k|nw rq f k|a p] out|rq f k t log out|rq f k ts out]; try done. destruct (inst (made dn) a) as [k|] eqn:Hi; [|done].
    destruct (record1 U i (bf j) k (jc_state c)) as [cs' [g|?|]] eqn:Er; [|done|done]. eapply rtc_l; [by eapply JCmd|]. by apply IH.
  - assert (match th_step U 0 x, cs_regs (jc_state c) !! i with
            | Some m, Some r =>
                match m r with
                | (r', Ok x') => j_play U i bf sched (JConf (<[j := JTask x' dn]> (jc_tasks c)) (CState (<[i := r']> (cs_regs (jc_state c))) (cs_bufs (jc_state c))))
                | _ => None
                end
            | _, _ => None
            end = Some c') as E'.
    { destruct x as [[|rq f k|rq k|nw rq f k|a p] out|rq f k t log out|rq f k ts out]; try done; exact E. }
    clear E. destruct (th_step U 0 x) as [m|] eqn:Hm; [|done]. destruct (cs_regs (jc_state c) !! i) as [r|] eqn:Hr; [|done].
    destruct (m r) as [r' [x'|?|]] eqn:Em; [|done|done]. eapply rtc_l; [by eapply JView|]. by apply IH.
Qed.
Definition j_donebf (nb : nat) (bf : nat → nat) (ps : list sprog) : bool := forallb (λ j, bf j <? nb) (seq 0 (length ps)).
Lemma j_donebf_ok nb bf ps : j_donebf nb bf ps = true → ∀ j, j < length ps → bf j < nb.
Proof. intros H j Hj. unfold j_donebf in H. rewrite forallb_forall in H. apply Nat.ltb_lt, H. apply in_seq. lia. Qed.
Definition returned (x : sthread) : bool := match x with TAt PRet _ => true | _ => false end.
(** The batches, each with the threads of its systems and the order of the steps. *)
Fixpoint bs_play (U : universe) (i : nat) (pss : list (list sprog)) (scheds : list ((nat → nat) * list nat)) (cs : cstate) : option (list jtask * cstate) :=
  match pss, scheds with
  | [], [] => Some ([], cs)
  | ps :: pss, (bf, sched) :: scheds =>
      match j_play U i bf sched (j_start ps cs) with
      | Some c =>
          if j_donebf (length (cs_bufs cs)) bf ps && forallb (λ t, returned (jt_th t)) (jc_tasks c)
          then match bs_play U i pss scheds (jc_state c) with Some (ts, cs') => Some (jc_tasks c ++ ts, cs') | None => None end
          else None
      | None => None
      end
  | _, _ => None
  end.
Lemma bs_play_run U i pss : ∀ scheds cs ts cs', bs_play U i pss scheds cs = Some (ts, cs') → batches_run U i pss cs ts cs'.
Proof.
  induction pss as [|ps pss IH]; intros [|[bf sched] scheds] cs ts cs' E; cbn [bs_play] in E; try done; [injection E as <- <-; constructor|].
  destruct (j_play U i bf sched (j_start ps cs)) as [c|] eqn:Ec; [|done]. destruct (j_donebf (length (cs_bufs cs)) bf ps) eqn:Eb; [|done].
  destruct (forallb (λ t, returned (jt_th t)) (jc_tasks c)) eqn:Ed; [|done]. cbn [andb] in E.
  destruct (bs_play U i pss scheds (jc_state c)) as [[ts1 cs1]|] eqn:E1; [|done]. injection E as <- <-.
  eapply BRcons; [by apply j_donebf_ok|by eapply j_play_run| |by eapply IH].
  apply Forall_forall. intros t Ht. rewrite forallb_forall in Ed. apply elem_of_list_In, Ed in Ht. destruct (jt_th t) as [[] out| |]; try done. by exists out.
Qed.

(** First stage: a system that adds 100 to every component 1, then creates an entity and sets component 2 of it to
    the number of entities seen; beside it one that clones the first entity it sees and destroys the others.  Second
    stage: a system that adds another 100 with par_each and then creates an entity with the component 1 that single()
    returns as component 2. *)
Lemma ex71_ok1 : Forall arg_ok [ArgView [(false, 1%N)]; ArgCommands]. Proof. by repeat constructor. Qed.
Lemma ex71_ok2 : Forall arg_ok [ArgCommands; ArgView [(true, 0%N)]]. Proof. by repeat constructor. Qed.
Lemma ex71_ok3 : Forall arg_ok [ArgView [(false, 1%N)]; ArgCommands]. Proof. by repeat constructor. Qed.
Definition sys71a : sysm := Sysm 1 [ArgView [(false, 1%N)]; ArgCommands] ex71_ok1.
Definition sys71b : sysm := Sysm 2 [ArgCommands; ArgView [(true, 0%N)]] ex71_ok2.
Definition sys71c : sysm := Sysm 3 [ArgView [(false, 1%N)]; ArgCommands] ex71_ok3.
Definition f71 : callback := λ _ xs c, match xs with [CVal (Val v)] => if decide (c = 1%N) then Some (Val (v + 100)) else None | _ => None end.
Definition no71 : callback := λ _ _ _, None.
Fixpoint kill71 (l : vlog) : sprog := match l with [CEnt h] :: l => PCmd (SDestroy (RKnown h)) (kill71 l) | _ => PRet end.
Definition body71 (sy : sysm) : sprog :=
  match sy_name sy with
  | 1 => PEach [VReq 1 true] f71 (λ log, PCmd (SCreate [(1%N, Val 10)]) (PCmd (SSet (ROwn 0) 2%N (Val (N.of_nat (length log)))) PRet))
  | 2 => PEach [VReq 0 false] no71 (λ log, match log with [CEnt h] :: log => PCmd (SClone (RKnown h)) (kill71 log) | _ => PRet end)
  | 3 => PPar 4 [VReq 1 true] (f71 []) (PSingle [VReq 1 true] (λ x, match x with Some [CVal v] => PCmd (SCreate [(2%N, v)]) PRet | _ => PRet end))
  | _ => PRet
  end.
Definition stages71 : list (list sysm) := [[sys71a; sys71b]; [sys71c]].
Definition bs71 : list (list sysm) := [[sys71a; sys71b]; [sys71c]].
Example ex_C71_stages : stages_of stages71 bs71.
Proof.
  exists [StageExec [[sys71a; sys71b]] []; StageExec [[sys71c]] []]. split; [|done].
  repeat constructor; exists (Stage [] []); by vm_compute.
Qed.
Example ex_C71_well : Forall (Forall (well_behaved U0 body71)) stages71.
Proof.
  assert (∀ (sy : sysm), (forallb (λ a, match a with ArgView cs => bool_decide ((false, u_ent U0) ∉ cs) | _ => true end) (sy_args sy)) = true →
    ∀ cs, ArgView cs ∈ sy_args sy → (false, u_ent U0) ∉ cs) as H.
  { intros sy Hb cs Hin. rewrite forallb_forall in Hb. apply elem_of_list_In, Hb in Hin. by apply bool_decide_eq_true in Hin. }
  apply Forall_cons. split; [apply Forall_cons; split; [|apply Forall_cons; split; [|done]]|apply Forall_cons; split; [|done]; apply Forall_cons; split; [|done]].
  - split; [|apply H; by vm_compute]. split; [left|]. intros log. split; [right; left|]. split; [right; left|]. done.
  - split; [|apply H; by vm_compute]. split; [left|]. intros [|[|[h|] []] log]; try done. split; [left|].
    induction log as [|[|[h'|] []] log IH]; try done. split; [left|done].
  - split; [|apply H; by vm_compute]. split; [lia|]. split; [left|]. split; [left|]. intros [[|[|v] []]|]; try done. split; [right; left|done].
Qed.
Definition r71 : registry := default rg_init (cs_regs cs70 !! 0).
Definition scripts71 : list (list scmd) :=
  [[SCreate [(1%N, Val 10)]; SSet (ROwn 0) 2%N (Val 2)]; [SClone (RKnown h0); SDestroy (RKnown h1)]; [SCreate [(2%N, Val 201)]]].
Definition end71 : registry := (run_progs U0 (body71 <$> concat bs71) r71).1.
Example ex_C71_scripts : run_progs U0 (body71 <$> concat bs71) r71 = (end71, Ok scripts71).
Proof. unfold end71. assert ((run_progs U0 (body71 <$> concat bs71) r71).2 = Ok scripts71) as <- by (by vm_compute). by destruct (run_progs _ _ _). Qed.
Lemma calls71 : progs_calls U0 (body71 <$> concat bs71) r71 = (end71, Ok 4).
Proof. destruct (progs_calls_ok U0 _ _ _ _ ex_C71_scripts) as [v E]. rewrite E. assert ((progs_calls U0 (body71 <$> concat bs71) r71).2 = Ok 4) as E2 by (by vm_compute). rewrite E in E2. cbn [snd] in E2. rewrite E2. reflexivity. Qed.
Lemma ok71 : Forall (Forall (scmd_ok U0 (sr_issued s70))) scripts71. Proof. oks70. Qed.
Lemma ind71 : independent scripts71.
Proof.
  assert (∀ (j : nat) l c h, scripts71 !! j = Some l → c ∈ l → uses_known c h → j = 1) as H.
  { intros [|[|[|j]]] l c h Hl Hc Hu; [cbn in Hl..|done]; [|done|].
    - injection Hl as <-. repeat (apply elem_of_cons in Hc as [->|Hc]; [done|]). by apply elem_of_nil in Hc.
    - injection Hl as <-. repeat (apply elem_of_cons in Hc as [->|Hc]; [done|]). by apply elem_of_nil in Hc. }
  intros j j' l l' c c' h N Hl Hl' Hc Hc' Hw Hu. apply writes_uses in Hw. pose proof (H _ _ _ _ Hl Hc Hw). pose proof (H _ _ _ _ Hl' Hc' Hu). congruence.
Qed.

(** Two runs: in the first the systems run in order on the threads of their numbers; in the second they exchange
    threads and interleave. *)
Definition sched71a : list ((nat → nat) * list nat) := [(id, replicate 8 0 ++ replicate 8 1); (id, replicate 8 0)].
Definition sched71b : list ((nat → nat) * list nat) := [(swap01, concat (replicate 8 [1; 0])); (swap01, replicate 8 0)].
Definition final71 (s : list ((nat → nat) * list nat)) : list jtask * cstate :=
  default ([], cs70) (bs_play U0 0 ((λ b : list sysm, body71 <$> b) <$> bs71) s cs70).
Definition flush71 (s : list ((nat → nat) * list nat)) : cstate := (flush U0 0 (final71 s).2).1.
Notation progs71 := ((λ b : list sysm, body71 <$> b) <$> bs71).
Lemma play71 s : bs_play U0 0 progs71 s cs70 ≠ None → batches_run U0 0 progs71 cs70 (final71 s).1 (final71 s).2.
Proof. intros H. apply bs_play_run with (scheds := s). unfold final71. destruct (bs_play U0 0 progs71 s cs70) as [[ts cs']|]; [exact eq_refl|by destruct H]. Qed.
Lemma frame71 s : bs_play U0 0 progs71 s cs70 ≠ None → (flush U0 0 (final71 s).2).2 = Ok tt → frame_run U0 0 progs71 cs70 (final71 s).1 (flush71 s) (Ok tt).
Proof.
  intros H Hf. exists (final71 s).2. split; [by apply play71|]. unfold flush71. rewrite (surjective_pairing (flush U0 0 (final71 s).2)). rewrite Hf. exact eq_refl.
Qed.
Lemma some71 {A} (x : option A) : bool_decide (is_Some x) = true → x ≠ None.
Proof. intros H%bool_decide_eq_true ->. by destruct H. Qed.
Example ex_C71_run1 : frame_run U0 0 progs71 cs70 (final71 sched71a).1 (flush71 sched71a) (Ok tt).
Proof. apply frame71; [apply some71|]; vm_compute; exact eq_refl. Qed.
Example ex_C71_run2 : frame_run U0 0 progs71 cs70 (final71 sched71b).1 (flush71 sched71b) (Ok tt).
Proof. apply frame71; [apply some71|]; vm_compute; exact eq_refl. Qed.
Lemma at71 : cs_regs cs70 !! 0 = Some r71.
Proof. unfold r71. assert (bool_decide (is_Some (cs_regs cs70 !! 0)) = true) as H%bool_decide_eq_true by (vm_compute; exact eq_refl). destruct (cs_regs cs70 !! 0); [exact eq_refl|by destruct H]. Qed.
Lemma live71 : sr_failed s70 = false. Proof. vm_compute. exact eq_refl. Qed.
Lemma bw71 : below_wrap (2 * (2 + 4 + 5 * S (sum_list (length <$> scripts71)))). Proof. by vm_compute. Qed.
Lemma bw71' : below_wrap (2 * 2). Proof. by vm_compute. Qed.
Example ex_C71 := C71_frame_partial U0 U0_wf body71 2 0 cs70 ss70 s70 r71 stages71 bs71 scripts71 end71 4 _ _ _ _ (Ok tt)
  ready70 live71 at71 ex_C71_stages ex_C71_well ex_C71_scripts calls71 bw71 ok71 ind71 ex_C71_run1 ex_C71_run2.
(** The handles of the first two systems are exchanged; what the entities hold is not. *)
Example ex_C71_seen : (obs70 (flush71 sched71a) <$> [h0; h1; h2; h3; h4], rg_size <$> cs_regs (flush71 sched71a) !! 0) =
  (obs70 (flush71 sched71b) <$> [h0; h1; h3; h2; h4], rg_size <$> cs_regs (flush71 sched71b) !! 0) ∧
  obs70 (flush71 sched71a) <$> [h0; h2; h4] =
    [[Ok (CVal (Val 201)); Throw ComponentNotFound]; [Ok (CVal (Val 10)); Ok (CVal (Val 2))]; [Throw ComponentNotFound; Ok (CVal (Val 201))]] ∧
  (λ t, made (jt_done t)) <$> (final71 sched71a).1 = [[h2]; [h3]; [h4]] ∧ (λ t, made (jt_done t)) <$> (final71 sched71b).1 = [[h3]; [h2]; [h4]].
Proof. split; [|split; [|split]]; vm_compute; exact eq_refl. Qed.
Lemma ex_C71_run3 : batches_run U0 0 progs71 cs70 (final71 sched71b).1 (final71 sched71b).2.
Proof. apply play71, some71. vm_compute. exact eq_refl. Qed.
Example ex_C71_views := C71_views U0 U0_wf body71 2 0 cs70 ss70 s70 r71 stages71 bs71 _ _ ready70 bw71' live71 at71 ex_C71_stages ex_C71_well
  ex_C71_run3.
Definition mid71 : jconf := default (j_start [] cs70) (j_play U0 0 swap01 (concat (replicate 5 [1; 0])) (j_start (body71 <$> [sys71a; sys71b]) cs70)).
(** After 10 of the 16 steps of the first batch. *)
Example ex_C71_mid : ∃ k, nsteps (j_step U0 0 swap01) k (j_start (body71 <$> [sys71a; sys71b]) cs70) mid71.
Proof.
  apply rtc_nsteps, j_play_run with (sched := concat (replicate 5 [1; 0])). unfold mid71.
  assert (bool_decide (is_Some (j_play U0 0 swap01 (concat (replicate 5 [1; 0])) (j_start (body71 <$> [sys71a; sys71b]) cs70))) = true) as H%bool_decide_eq_true by (vm_compute; exact eq_refl).
  destruct (j_play _ _ _ _ _); [exact eq_refl|by destruct H].
Qed.
Example ex_C71_batch := λ k H, C71_batch U0 U0_wf body71 2 0 cs70 ss70 s70 r71 stages71 bs71 [sys71a; sys71b] swap01 k mid71
  ready70 bw71' live71 at71 ex_C71_stages ex_C71_well (elem_of_list_here _ _) H.

(** Two systems that may run in one batch set the same component of an entity through their command_writers: which value
    the frame leaves depends on the threads they ran on. *)
Lemma ex71_ok4 : Forall arg_ok [ArgCommands]. Proof. by repeat constructor. Qed.
Definition sys71d : sysm := Sysm 1 [ArgCommands] ex71_ok4.
Definition sys71e : sysm := Sysm 2 [ArgCommands] ex71_ok4.
Definition body71x (sy : sysm) : sprog := PCmd (SSet (RKnown h0) 1%N (Val (if decide (sy_name sy = 1) then 7 else 8))) PRet.
Definition final71x (bf : nat → nat) : list jtask * cstate := default ([], cs70) (bs_play U0 0 [body71x <$> [sys71d; sys71e]] [(bf, [0; 1])] cs70).
Definition flush71x (bf : nat → nat) : cstate := (flush U0 0 (final71x bf).2).1.
Theorem C71_conflict_refuted : ∃ stages bs body ts1 ts2 cs1 cs2 r1 r2, ready U0 2 0 cs70 ss70 s70 ∧ stages_of stages bs ∧
  Forall (Forall (well_behaved U0 body)) stages ∧
  frame_run U0 0 ((λ b : list sysm, body <$> b) <$> bs) cs70 ts1 cs1 (Ok tt) ∧
  frame_run U0 0 ((λ b : list sysm, body <$> b) <$> bs) cs70 ts2 cs2 (Ok tt) ∧
  cs_regs cs1 !! 0 = Some r1 ∧ cs_regs cs2 !! 0 = Some r2 ∧
  (rg_get h0 1%N r1).2 = Ok (CVal (Val 8)) ∧ (rg_get h0 1%N r2).2 = Ok (CVal (Val 7)).
Proof.
  exists [[sys71d; sys71e]], [[sys71d; sys71e]], body71x, (final71x id).1, (final71x swap01).1, (flush71x id), (flush71x swap01),
    (default rg_init (cs_regs (flush71x id) !! 0)), (default rg_init (cs_regs (flush71x swap01) !! 0)).
  split; [apply ready70|]. split.
  { exists [StageExec [[sys71d; sys71e]] []]. split; [|done]. repeat constructor. exists (Stage [] []). by vm_compute. }
  split.
  { apply Forall_cons. split; [|done]. assert (∀ sy, sy_args sy = [ArgCommands] → well_behaved U0 body71x sy) as H.
    { intros sy E. split; rewrite E; [split; [left|done]|]. intros cs Hin. by apply elem_of_list_singleton in Hin. }
    apply Forall_cons. split; [by apply H|]. apply Forall_cons. split; [by apply H|done]. }
  assert (∀ bf, bs_play U0 0 [body71x <$> [sys71d; sys71e]] [(bf, [0; 1])] cs70 ≠ None → (flush U0 0 (final71x bf).2).2 = Ok tt →
    frame_run U0 0 ((λ b : list sysm, body71x <$> b) <$> [[sys71d; sys71e]]) cs70 (final71x bf).1 (flush71x bf) (Ok tt)) as H.
  { intros bf H1 H2. exists (final71x bf).2. split.
    - apply bs_play_run with (scheds := [(bf, [0; 1])]). unfold final71x.
      change ((λ b : list sysm, body71x <$> b) <$> [[sys71d; sys71e]]) with [body71x <$> [sys71d; sys71e]].
      destruct (bs_play U0 0 [body71x <$> [sys71d; sys71e]] [(bf, [0; 1])] cs70) as [[ts cs']|]; [exact eq_refl|by destruct H1].
    - unfold flush71x. rewrite (surjective_pairing (flush U0 0 (final71x bf).2)), H2. exact eq_refl. }
  split; [apply H; [apply some71|]; vm_compute; exact eq_refl|]. split; [apply H; [apply some71|]; vm_compute; exact eq_refl|]. clear H.
  split; [vm_compute; exact eq_refl|]. split; [vm_compute; exact eq_refl|]. split; vm_compute; exact eq_refl.
Qed.

Print Assumptions C71_views.
Print Assumptions C71_frame_partial.
Print Assumptions C71_batch.
Print Assumptions C71_conflict_refuted.
