(** C72: several runs of a schedule. *)
From Verif Require Import Base Bits Layout PropLayout HandlePool HandleSpec HandlePoolProofs SparseMap SparseMapProofs
  HashTable HashTableProofs HashTableMap Bitset BitsetProofs ComponentSet ComponentSetProofs
  Chunk ChunkProofs Archetype ArchetypeProofs Registry RegistryStore RegistryProofs View ViewProofs RegSpec RegSpecProofs
  RegObs RegRun PropRegistry PropView PropStorage ParallelFor ParEach ParEachProofs Access Stage PropStage
  Command CommandSpec CommandProofs PropCommand SysCommand SysCommandProofs PropSysCommand
  SystemRun SystemRunProofs PropSystemRun SysFrame SysFrameProofs PropSysFrame Frames FramesProofs.
Local Open Scope nat_scope.

Section props.
Context (U : universe).
Hypothesis HU : u_wf U.
Context (body : sysm → sprog).
Notation progs bs := ((λ b : list sysm, body <$> b) <$> bs).
Notation made_in tss := (concat ((λ t, made (jt_done t)) <$> concat tss)).

Lemma frames_rel N i K A f cs1 cs2 stages bs tss1 k cs1' tss2 k2 cs2' :
  stages_of stages bs → Forall (Forall (well_behaved U body)) stages →
  Forall (blind K) (body <$> concat bs) → Forall (typed U) (body <$> concat bs) →
  states_rel U N i K A f cs1 cs2 → frames_run U i (progs bs) cs1 tss1 k cs1' → below_wrap (2 * (N + k)) →
  Forall (λ ts, independent (scripts_of ts)) tss1 → frames_run U i (progs bs) cs2 tss2 k2 cs2' → length tss2 = length tss1 →
  ∃ f', (∀ h, h ∈ A → f' h = f h) ∧ states_rel U (N + k) i K (A ++ made_in tss1) f' cs1' cs2'.
Proof.
  intros Hst Hwb Hbl Hty Hs Hr. revert N A f cs2 tss2 k2 Hs.
  induction Hr as [cs|cs r v r' ts cs1 tss k cs' Hi Ev Hf _ IH]; intros N A f cs2 tss2 k2 Hs Hbw Hind Hr2 El.
  - destruct tss2; [|done]. inversion Hr2; subst. exists f. split; [done|]. cbn. rewrite app_nil_r, Nat.add_0_r. done.
  - destruct tss2 as [|ts2 tss2]; [done|]. inversion Hr2 as [|? ? ? ? ? cs3 ? k3 ? _ _ Hf2 Hr3]; subst. apply Forall_cons in Hind as [Hi1 Hind]. rewrite concat_progs in Ev. unfold below_wrap in Hbw.
    destruct (frame_rel U HU body N i K A f cs cs2 stages bs r v r' ts ts2 cs1 cs3 (Ok tt) Hs Hst Hwb Hbl Hty Hi Ev Hf Hi1 ltac:(unfold below_wrap; lia) Hf2) as [?|[[? _]|(_ & f1 & E1 & Hs1)]]; [done|done|].
    destruct (IH _ _ _ _ _ _ Hs1 ltac:(unfold below_wrap; lia) Hind Hr3 ltac:(cbn in El; congruence)) as (f' & E' & Hs').
    exists f'. split; [intros h Hh; rewrite E'; [by apply E1|apply elem_of_app; by left]|].
    rewrite <- app_assoc in Hs'. rewrite Nat.add_assoc. cbn [concat]. by rewrite fmap_app, concat_app.
Qed.
Lemma start_rel n i cs ss s : ready U n i cs ss s → sr_failed s = false → states_rel U n i (sr_issued s) (sr_issued s) id cs cs.
Proof.
  intros Hr Hf. exists n, n, ss, ss, s, s. split; [done|]. split; [done|]. split; [done|]. split; [done|]. split; [done|]. split; [done|]. split; [done|]. split; [by intros ? ?|].
  split; [done|]. split; [done|]. destruct Hr as [Hreach Hrec _ _]. apply (reach_swf U HU) in Hreach. pose proof (proj1 (Forall_lookup _ _) Hreach _ _ Hrec) as [Hd _].
  split; [exact Hd|]. split; [done|]. intros g Hg. exists g. split; [by apply Hd|done].
Qed.
Lemma frames_split i pss cs tss1 tss2 k cs' : frames_run U i pss cs (tss1 ++ tss2) k cs' →
  ∃ cm k1 k2, k = k1 + k2 ∧ frames_run U i pss cs tss1 k1 cm ∧ frames_run U i pss cm tss2 k2 cs'.
Proof.
  revert cs k. induction tss1 as [|ts tss1 IH]; intros cs k H; [exists cs, 0, k; split; [done|]; split; [constructor|done]|].
  cbn in H. inversion H as [|? ? ? ? ? cs3 ? k3 ? Hi Ev Hf Hr]; subst. destruct (IH _ _ Hr) as (cm & k1 & k2 & -> & H1 & H2).
  exists cm. eexists. exists k2. split; [|split; [by eapply FRS|done]]. lia.
Qed.

(** A schedule runs again and again; its bodies are blind to the order of rows and to the choice of handles, apart from the handles
    that were there at the beginning.  In another execution, from the same state, on other threads and in another order: behind as many
    runs both registries hold the same entities, up to the choice of the new handles. *)
Theorem C72_frames_partial n i cs ss s stages bs tss1 k1 cs1 tss2 k2 cs2 :
  ready U n i cs ss s → sr_failed s = false → stages_of stages bs → Forall (Forall (well_behaved U body)) stages →
  Forall (blind (sr_issued s)) (body <$> concat bs) → Forall (typed U) (body <$> concat bs) →
  frames_run U i (progs bs) cs tss1 k1 cs1 → below_wrap (2 * (n + k1)) → Forall (λ ts, independent (scripts_of ts)) tss1 →
  frames_run U i (progs bs) cs tss2 k2 cs2 → length tss2 = length tss1 →
  let A := sr_issued s ++ made_in tss1 in
  ∃ f r1 r2, inj_on A f ∧ (∀ h, h ∈ sr_issued s → f h = h) ∧ cs_regs cs1 !! i = Some r1 ∧ cs_regs cs2 !! i = Some r2 ∧
    (∀ h b, (rg_has h [] r1).2 = Ok b → h ∈ A) ∧ same_entities U A f r1 r2.
Proof.
  intros Hr Hf Hst Hwb Hbl Hty H1 Hbw Hind H2 El A.
  destruct (frames_rel n i _ _ _ _ _ _ _ _ _ _ _ _ _ Hst Hwb Hbl Hty (start_rel _ _ _ _ _ Hr Hf) H1 Hbw Hind H2 El) as (f & Ef & (n1 & n2 & ss1 & ss2 & s1 & s2 & R1 & R2 & L1 & L2 & _ & _ & _ & Hi & Hk & _ & Hw)).
  destruct R1 as [Re1 Rc1 _ _], R2 as [Re2 Rc2 _ _]. destruct (reg_at U _ _ _ _ _ Re1 Rc1) as (r1 & E1 & G1). destruct (reg_at U _ _ _ _ _ Re2 Rc2) as (r2 & E2 & G2).
  unfold below_wrap in Hbw. assert (below_wrap (2 * n1)) as B1 by (unfold below_wrap; lia). assert (below_wrap (2 * n2)) as B2 by (unfold below_wrap; lia).
  exists f, r1, r2. split; [done|]. split; [done|]. split; [done|]. split; [done|]. split; [|by eapply (same_ents U HU _ _ r1 s1 n1 r2 s2 n2)].
  intros h b Hb. apply Hw. destruct (sr_world s1 !! h) eqn:Ew; [by eexists|exfalso].
  destruct (reached_ri U HU _ _ _ G1 B1) as (iss1 & hp1 & [_ I1 _]). destruct (out_specs U _ _ _ _ _ _ _ _ h I1 Ew) as (_ & _ & _ & _ & _ & K1 & _). by rewrite K1 in Hb.
Qed.

(** A run of the other execution fails in no other way than that a layout is refused or behaviour is undefined as in
    C17 and C18. *)
Theorem C72_outcome_partial n i cs ss s stages bs tss1 k1 cs1 tss2 k2 cs2 ts cs' o :
  ready U n i cs ss s → sr_failed s = false → stages_of stages bs → Forall (Forall (well_behaved U body)) stages →
  Forall (blind (sr_issued s)) (body <$> concat bs) → Forall (typed U) (body <$> concat bs) →
  frames_run U i (progs bs) cs tss1 k1 cs1 → below_wrap (2 * (n + k1)) → Forall (λ ts, independent (scripts_of ts)) tss1 →
  frames_run U i (progs bs) cs tss2 k2 cs2 → length tss2 < length tss1 → frame_run U i (progs bs) cs2 ts cs' o →
  o = Ok tt ∨ o = Throw InsufficientChunkSize ∨ o = UB ∧ stuck U (cs_regs cs').
Proof.
  intros Hr Hf Hst Hwb Hbl Hty H1 Hbw Hind H2 El Hfr.
  assert (∃ l1 t l2, tss1 = l1 ++ t :: l2 ∧ length l1 = length tss2) as (l1 & t & l2 & -> & El1).
  { destruct (lookup_lt_is_Some_2 tss1 (length tss2) El) as [t Ht]. exists (take (length tss2) tss1), t, (drop (S (length tss2)) tss1).
    split; [by rewrite take_drop_middle|]. rewrite take_length. lia. }
  apply frames_split in H1 as (cm & ka & kb & -> & Ha & Hb). apply Forall_app in Hind as [Ia Ib]. apply Forall_cons in Ib as [It _]. unfold below_wrap in Hbw.
  inversion Hb as [|? r v r' ? cs3 ? k3 ? Hi Ev Hft Hrest]; subst. rewrite concat_progs in Ev.
  destruct (frames_rel n i _ _ _ _ _ _ _ _ _ _ _ _ _ Hst Hwb Hbl Hty (start_rel _ _ _ _ _ Hr Hf) Ha ltac:(unfold below_wrap; lia) Ia H2 (eq_sym El1)) as (f & Ef & Hs).
  destruct (frame_rel U HU body _ i _ _ f cm cs2 stages bs r v r' t ts cs3 cs' o Hs Hst Hwb Hbl Hty Hi Ev Hft It ltac:(unfold below_wrap; lia) Hfr) as [->|[[-> ?]|[-> _]]]; auto.
Qed.
End props.

(** * Blind bodies *)
Lemma sim_prog A f l1 l2 p1 p2 : ∀ out1 out2, body_sim A f p1 (out1 ++ l1) p2 (out2 ++ l2) → body_sim A f (prog_of l1 p1) out1 (prog_of l2 p2) out2.
Proof.
  induction l1 as [|c l1 IH1]; intros out1 out2 H.
  - cbn. rewrite app_nil_r in H. revert out2 H. induction l2 as [|c l2 IH2]; intros out2 H; cbn; [by rewrite app_nil_r in H|].
    apply SimCmd2, IH2. by rewrite <- app_assoc.
  - cbn. apply SimCmd1, IH1. by rewrite <- app_assoc.
Qed.
Lemma single_separate b : separate [b].
Proof. intros [|j] [|j'] ? ? ? ? ? N H1 H2; done. Qed.
(** A loop whose callback has no memory and uses no handles, behind it the same calls for every row; they refer to entities of that row or made for it. *)
Definition rows_body (rq : list vreq) (g : callback) (block : list cell → list scmd) : sprog :=
  PEach rq g (λ log, prog_of (assemble (block <$> log)) PRet).
Lemma rows_blind K rq g block : (∀ f l1 l2 x c, g l2 (row_ren f x) c = g l1 x c) →
  (∀ f x, block (row_ren f x) = script_ren f (block x)) → (∀ x c h, c ∈ block x → refers c h → CEnt h ∈ x) → blind K (rows_body rq g block).
Proof.
  intros Hg Hb Hr A f _ _ _. apply SimEach; [intros; apply Hg|]. intros log1 log2 _ Hd Hp. apply sim_prog, SimRet. cbn [app].
  exists [block <$> log1], [block <$> log2]. cbn [concat]. rewrite !app_nil_r. split; [done|]. split; [done|]. split.
  - apply Forall_singleton. intros j j' b b' c c' h N Hj Hj' Hc Hc' Hw Hu. rewrite list_lookup_fmap in Hj, Hj'.
    destruct (log1 !! j) as [x|] eqn:E; [|done]. destruct (log1 !! j') as [x'|] eqn:E'; [|done]. injection Hj as <-. injection Hj' as <-.
    apply (Hd j j' x x' h N E E'); eapply Hr; [exact Hc|by apply writes_uses|exact Hc'|exact Hu].
  - constructor; [|constructor]. rewrite Hp, <- !list_fmap_compose. apply Permutation_refl', list_fmap_ext. intros ? x _. cbn. apply Hb.
Qed.

(** * Examples *)
(** A boolean check of [independent]. *)
Definition wr_of (c : scmd) : list handle := match c with SCreate _ | SClone _ => [] | SSet x _ _ | SRemove x _ | SDestroy x => match x with RKnown h => [h] | _ => [] end end.
Definition indep_b (scripts : list (list scmd)) : bool :=
  forallb (λ j, forallb (λ j', (j =? j') || forallb (λ h, negb (bool_decide (h ∈ default [] (scripts !! j') ≫= hs_of))) (default [] (scripts !! j) ≫= wr_of))
    (seq 0 (length scripts))) (seq 0 (length scripts)).
Lemma indep_b_ok scripts : indep_b scripts = true → independent scripts.
Proof.
  intros H j j' l l' c c' h N Hl Hl' Hc Hc' Hw Hu. unfold indep_b in H. rewrite forallb_forall in H.
  specialize (H j ltac:(apply in_seq; apply lookup_lt_Some in Hl; lia)). rewrite forallb_forall in H.
  specialize (H j' ltac:(apply in_seq; apply lookup_lt_Some in Hl'; lia)). apply orb_true_iff in H as [->%Nat.eqb_eq|H]; [done|]. rewrite Hl, Hl' in H. cbn [default] in H. rewrite forallb_forall in H.
  specialize (H h). rewrite negb_true_iff, bool_decide_eq_false in H. apply H.
  - apply elem_of_list_In, elem_of_list_bind. exists c. split; [|done]. destruct c; cbn in *; try done; subst; by left.
  - apply elem_of_list_bind. exists c'. split; [by apply hs_refers|done].
Qed.

(** Frames with given schedules. *)
Fixpoint frames_play (U : universe) (i : nat) (pss : list (list sprog)) (scheds : list (list ((nat → nat) * list nat))) (cs : cstate) : option (list (list jtask) * nat * cstate) :=
  match scheds with
  | [] => Some ([], 0, cs)
  | s :: scheds =>
      match cs_regs cs !! i, bs_play U i pss s cs with
      | Some r, Some (ts, cs1) =>
          match (progs_calls U (concat pss) r).2, flush U i cs1 with
          | Ok v, (cs2, Ok _) =>
              match frames_play U i pss scheds cs2 with
              | Some (tss, k, cs') => Some (ts :: tss, v + 5 * S (sum_list ((λ t, length (out_of (jt_th t))) <$> ts)) + k, cs')
              | None => None
              end
          | _, _ => None
          end
      | _, _ => None
      end
  end.
Lemma frames_play_run U i pss : ∀ scheds cs tss k cs', frames_play U i pss scheds cs = Some (tss, k, cs') → frames_run U i pss cs tss k cs'.
Proof.
  induction scheds as [|s scheds IH]; intros cs tss k cs' E; cbn [frames_play] in E; [injection E as <- <- <-; constructor|].
  destruct (cs_regs cs !! i) as [r|] eqn:Hr; [|done]. destruct (bs_play U i pss s cs) as [[ts cs1]|] eqn:Hb; [|done].
  destruct (progs_calls U (concat pss) r) as [r' [v|?|]] eqn:Ev; [|done|done]. cbn [snd] in E. destruct (flush U i cs1) as [cs2 [[]|?|]] eqn:Ef; [|done|done].
  destruct (frames_play U i pss scheds cs2) as [[[tss1 k1] cs3]|] eqn:E2; [|done]. injection E as <- <- <-.
  eapply FRS; [done|done| |by apply IH]. exists cs1. split; [by eapply bs_play_run|done].
Qed.

(** One stage with three systems in a batch: one adds 100 to every component 1 and creates an entity; one sets component
    3 of every entity with component 2 to the value of that and creates an entity with it as component 4; one creates two entities and sets a
    component of the second.  Three runs: in order on two threads; and on exchanged threads, interleaved. *)
Lemma ex72_ok1 : Forall arg_ok [ArgView [(false, 1%N)]; ArgCommands]. Proof. by repeat constructor. Qed.
Lemma ex72_ok2 : Forall arg_ok [ArgCommands; ArgView [(true, 0%N); (true, 2%N)]]. Proof. by repeat constructor. Qed.
Lemma ex72_ok3 : Forall arg_ok [ArgCommands]. Proof. by repeat constructor. Qed.
Definition sys72a : sysm := Sysm 1 [ArgView [(false, 1%N)]; ArgCommands] ex72_ok1.
Definition sys72b : sysm := Sysm 2 [ArgCommands; ArgView [(true, 0%N); (true, 2%N)]] ex72_ok2.
Definition sys72c : sysm := Sysm 3 [ArgCommands] ex72_ok3.
Definition block72 (x : list cell) : list scmd :=
  match x with [CEnt h; CVal v] => [SSet (RKnown h) 3%N v; SCreate [(4%N, v)]] | _ => [] end.
Definition body72 (sy : sysm) : sprog :=
  match sy_name sy with
  | 1 => PEach [VReq 1 true] f71 (λ log, PCmd (SCreate [(2%N, Val 7)]) PRet)
  | 2 => rows_body [VReq 0 false; VReq 2 false] no71 block72
  | 3 => PCmd (SCreate [(2%N, Val 8)]) (PCmd (SCreate [(1%N, Val 9)]) (PCmd (SSet (ROwn 1) 2%N (Val 10)) PRet))
  | _ => PRet
  end.
Definition stages72 : list (list sysm) := [[sys72a; sys72b; sys72c]].
Definition bs72 : list (list sysm) := [[sys72a; sys72b; sys72c]].
Example ex_C72_stages : stages_of stages72 bs72.
Proof.
  exists [StageExec [[sys72a; sys72b; sys72c]] []]. split; [|done]. repeat constructor; exists (Stage [] []); by vm_compute.
Qed.
Lemma uses_prog_of vs (wr : Prop) l p : wr → uses_views vs wr p → uses_views vs wr (prog_of l p).
Proof. intros Hw Hp. induction l as [|c l IH]; [done|]. by split. Qed.
Example ex_C72_well : Forall (Forall (well_behaved U0 body72)) stages72.
Proof.
  assert (∀ (sy : sysm), (forallb (λ a, match a with ArgView cs => bool_decide ((false, u_ent U0) ∉ cs) | _ => true end) (sy_args sy)) = true →
    ∀ cs, ArgView cs ∈ sy_args sy → (false, u_ent U0) ∉ cs) as H.
  { intros sy Hb cs Hin. rewrite forallb_forall in Hb. apply elem_of_list_In, Hb in Hin. by apply bool_decide_eq_true in Hin. }
  apply Forall_cons. split; [apply Forall_cons; split; [|apply Forall_cons; split; [|apply Forall_cons; split; [|done]]]|done].
  - split; [|apply H; by vm_compute]. split; [left|]. intros log. split; [right; left|done].
  - split; [|apply H; by vm_compute]. split; [left|]. intros log. apply uses_prog_of; [left|done].
  - split; [|apply H; by vm_compute]. split; [left|]. split; [left|]. split; [left|done].
Qed.
Lemma calls_sim f l : script_ren f l = l → script_sim f l l.
Proof.
  intros E. exists [[l]], [[l]]. unfold assemble. cbn [concat app assemble_from].
  assert (scmd_shift 0 <$> l = l) as ->. { rewrite <- (list_fmap_id l) at 2. apply list_fmap_ext. intros _ [] _; cbn; repeat f_equal; destruct x; done. }
  rewrite app_nil_r. split; [done|]. split; [done|]. split; [apply Forall_singleton, single_separate|]. constructor; [|constructor]. cbn. by rewrite E.
Qed.
Example ex_C72_blind : Forall (blind (sr_issued s70)) (body72 <$> concat bs72).
Proof.
  apply Forall_cons. split; [|apply Forall_cons; split; [|apply Forall_cons; split; [|done]]].
  - intros A f _ _ _. apply SimEach.
    + intros l1 l2 x c _. destruct x as [|[h|v] [|]]; done.
    + intros log1 log2 _ _ _. apply SimCmd1, SimCmd2, SimRet. by apply calls_sim.
  - apply rows_blind.
    + done.
    + by intros f [|[h|v] [|[h'|v'] [|]]].
    + intros [|[h|v] [|[h'|v'] [|]]] k g Hc Hg; cbn in Hc; try by apply elem_of_nil in Hc.
      apply elem_of_cons in Hc as [->|[->|Hc]%elem_of_cons]; [|done|by apply elem_of_nil in Hc]. cbn in Hg. injection Hg as ->. left.
  - intros A f _ _ _. apply SimCmd1, SimCmd2, SimCmd1, SimCmd2, SimCmd1, SimCmd2, SimRet. by apply calls_sim.
Qed.
Lemma typed_prog_of U l p : Forall (scmd_typed U) l → typed U p → typed U (prog_of l p).
Proof. intros Hl Hp. induction Hl as [|c l Hc _ IH]; [done|]. by split. Qed.
Example ex_C72_typed : Forall (typed U0) (body72 <$> concat bs72).
Proof.
  assert (∀ v : val, ∀ c, c ≠ 0%N → NoDup [(c, v)].*1 ∧ u_ent U0 ∉ [(c, v)].*1) as H.
  { intros v c N. split; [apply NoDup_singleton|]. cbn. intros E%elem_of_list_singleton. congruence. }
  apply Forall_cons. split; [|apply Forall_cons; split; [|apply Forall_cons; split; [|done]]].
  - intros log. split; [by apply H|done].
  - intros log. apply typed_prog_of; [|done]. apply Forall_forall. intros c (b & c' & k & Hb & Hc & ->)%elem_assemble.
    apply typed_shift. apply elem_of_list_fmap in Hb as (x & -> & _). destruct x as [|[h|v] [|[h'|v'] [|]]]; cbn in Hc; try by apply elem_of_nil in Hc.
    apply elem_of_cons in Hc as [->|[->|Hc]%elem_of_cons]; [done|by apply H|by apply elem_of_nil in Hc].
  - split; [by apply H|]. split; [by apply H|done].
Qed.
Notation progs72 := ((λ b : list sysm, body72 <$> b) <$> bs72).
(** In the second run the systems exchange their threads, the last comes first and the others interleave. *)
Definition bf72 (j : nat) : nat := match j with 0 => 0 | _ => 1 end.
Definition bf72' (j : nat) : nat := match j with 0 => 1 | _ => 0 end.
Definition sched72a : list (list ((nat → nat) * list nat)) :=
  [[(bf72, replicate 7 0 ++ replicate 2 1 ++ replicate 3 2)]; [(bf72, replicate 10 0 ++ replicate 15 1 ++ replicate 3 2)];
   [(bf72, replicate 13 0 ++ replicate 28 1 ++ replicate 3 2)]].
Definition sched72b : list (list ((nat → nat) * list nat)) :=
  [[(bf72', replicate 3 2 ++ replicate 2 1 ++ replicate 7 0)]; [(bf72', replicate 3 2 ++ concat (replicate 10 [1; 0]) ++ replicate 5 1)];
   [(swap01, concat (replicate 3 [2; 1; 0]) ++ replicate 25 1 ++ replicate 10 0)]].
Definition final72 (s : list (list ((nat → nat) * list nat))) : list (list jtask) * nat * cstate :=
  default ([], 0, cs70) (frames_play U0 0 progs72 s cs70).
Lemma play72 s : frames_play U0 0 progs72 s cs70 ≠ None → frames_run U0 0 progs72 cs70 (final72 s).1.1 (final72 s).1.2 (final72 s).2.
Proof.
  intros H. apply frames_play_run with (scheds := s). unfold final72. destruct (frames_play U0 0 progs72 s cs70) as [[[tss k] cs']|]; [exact eq_refl|by destruct H].
Qed.
Example ex_C72_run1 : frames_run U0 0 progs72 cs70 (final72 sched72a).1.1 (final72 sched72a).1.2 (final72 sched72a).2.
Proof. apply play72, some71. vm_compute. exact eq_refl. Qed.
Example ex_C72_run2 : frames_run U0 0 progs72 cs70 (final72 sched72b).1.1 (final72 sched72b).1.2 (final72 sched72b).2.
Proof. apply play72, some71. vm_compute. exact eq_refl. Qed.
Lemma indep72 (tss : list (list jtask)) : forallb (λ ts, indep_b (scripts_of ts)) tss = true → Forall (λ ts, independent (scripts_of ts)) tss.
Proof. intros H. apply Forall_forall. intros ts Hts. apply indep_b_ok. rewrite forallb_forall in H. by apply H, elem_of_list_In. Qed.
Lemma ind72 : Forall (λ ts, independent (scripts_of ts)) (final72 sched72a).1.1.
Proof. apply indep72. vm_compute. exact eq_refl. Qed.
Lemma bw72 : below_wrap (2 * (2 + (final72 sched72a).1.2)). Proof. assert ((final72 sched72a).1.2 ≤ 1000) as H by (apply Nat.leb_le; vm_compute; exact eq_refl). unfold below_wrap. lia. Qed.
Lemma len72 : length (final72 sched72b).1.1 = length (final72 sched72a).1.1. Proof. vm_compute. exact eq_refl. Qed.
Example ex_C72 := C72_frames_partial U0 U0_wf body72 2 0 cs70 ss70 s70 stages72 bs72 _ _ _ _ _ _
  ready70 live71 ex_C72_stages ex_C72_well ex_C72_blind ex_C72_typed ex_C72_run1 bw72 ind72 ex_C72_run2 len72.
(** The runs use other handles for the same entities and visit the rows in another order. *)
Example ex_C72_seen :
  (λ ts, made (default (JTask (TAt PRet []) []) (ts !! 0)).(jt_done)) <$> (final72 sched72a).1.1 ≠ (λ ts, made (default (JTask (TAt PRet []) []) (ts !! 0)).(jt_done)) <$> (final72 sched72b).1.1 ∧
  (rg_size <$> cs_regs (final72 sched72a).2 !! 0) = (rg_size <$> cs_regs (final72 sched72b).2 !! 0).
Proof. split; [|vm_compute; exact eq_refl]. intros E. assert (∀ l1 l2 : list (list handle), bool_decide (l1 = l2) = false → l1 ≠ l2) as H by (intros l1 l2 H ->; by rewrite bool_decide_eq_true_2 in H). revert E. apply H. vm_compute. exact eq_refl. Qed.
Definition sched72c : list (list ((nat → nat) * list nat)) := [[(bf72', replicate 3 2 ++ replicate 2 1 ++ replicate 7 0)]].
Definition mid72 : list jtask * cstate := default ([], cs70) (bs_play U0 0 progs72 (nth 1 sched72b []) (final72 sched72c).2).
Example ex_C72_run3 : frames_run U0 0 progs72 cs70 (final72 sched72c).1.1 (final72 sched72c).1.2 (final72 sched72c).2.
Proof. apply play72, some71. vm_compute. exact eq_refl. Qed.
Example ex_C72_next : frame_run U0 0 progs72 (final72 sched72c).2 mid72.1 (flush U0 0 mid72.2).1 (Ok tt).
Proof.
  exists mid72.2. split.
  - apply bs_play_run with (scheds := nth 1 sched72b []). unfold mid72.
    assert (bs_play U0 0 progs72 (nth 1 sched72b []) (final72 sched72c).2 ≠ None) as H by (apply some71; vm_compute; exact eq_refl).
    destruct (bs_play _ _ _ _ _) as [[ts cs']|]; [exact eq_refl|by destruct H].
  - assert ((flush U0 0 mid72.2).2 = Ok tt) as E by (vm_compute; exact eq_refl).
    revert E. destruct (flush U0 0 mid72.2) as [x y]. cbn [fst snd]. intros ->. exact eq_refl.
Qed.
Lemma len72' : length (final72 sched72c).1.1 < length (final72 sched72a).1.1. Proof. apply Nat.ltb_lt. vm_compute. exact eq_refl. Qed.
Example ex_C72_outcome := C72_outcome_partial U0 U0_wf body72 2 0 cs70 ss70 s70 stages72 bs72 _ _ _ _ _ _ _ _ _
  ready70 live71 ex_C72_stages ex_C72_well ex_C72_blind ex_C72_typed ex_C72_run1 bw72 ind72 ex_C72_run3 len72' ex_C72_next.

(** * Bodies that see the order of rows *)
(** Two systems of one batch create entities, a third one in a later stage asks a view for single() and creates an
    entity with what it got.  Which of the two entities has the first row depends on which thread recorded it. *)
Lemma ex72_ok4 : Forall arg_ok [ArgView [(true, 1%N); (true, 2%N)]; ArgCommands]. Proof. by repeat constructor. Qed.
Definition sys72d : sysm := Sysm 4 [ArgCommands] ex72_ok3.
Definition sys72e : sysm := Sysm 5 [ArgView [(true, 1%N); (true, 2%N)]; ArgCommands] ex72_ok4.
Definition body72' (sy : sysm) : sprog :=
  match sy_name sy with
  | 3 => PCmd (SCreate [(1%N, Val 10); (2%N, Val 1)]) PRet
  | 4 => PCmd (SCreate [(1%N, Val 20); (2%N, Val 1)]) PRet
  | 5 => PSingle [VReq 1 false; VReq 2 false] (λ x, match x with Some (CVal v :: _) => PCmd (SCreate [(2%N, v)]) PRet | _ => PRet end)
  | _ => PRet
  end.
Definition bs72' : list (list sysm) := [[sys72c; sys72d]; [sys72e]].
Notation progs72' := ((λ b : list sysm, body72' <$> b) <$> bs72').
Definition sched72d (bf : nat → nat) : list (list ((nat → nat) * list nat)) := [[(bf, [0; 1]); (bf, [0])]; [(bf, [0; 1]); (bf, [0; 0])]].
Definition final72' (s : list (list ((nat → nat) * list nat))) : list (list jtask) * nat * cstate :=
  default ([], 0, cs70) (frames_play U0 0 progs72' s cs70).
Lemma play72' s : bool_decide (is_Some (frames_play U0 0 progs72' s cs70)) = true → frames_run U0 0 progs72' cs70 (final72' s).1.1 (final72' s).1.2 (final72' s).2.
Proof.
  intros H%some71. apply frames_play_run with (scheds := s). unfold final72'. destruct (frames_play U0 0 progs72' s cs70) as [[[tss k] cs']|]; [exact eq_refl|by destruct H].
Qed.
(** The handles that are alive. *)
Definition alive_of (r : registry) : list handle := imap (λ k g, Handle (N.of_nat k) g) (gens (rg_pool r)).
Lemma get_alive h c r x : (rg_get h c r).2 = Ok x → h ∈ alive_of r.
Proof.
  intros H. unfold rg_get, rg_location, bind in H. destruct (rg_alive r h) eqn:E; [|done]. unfold rg_alive, pool_alive in E.
  destruct (gens (rg_pool r) !! N.to_nat (h_id h)) as [g|] eqn:Eg; [|done]. apply bool_decide_eq_true in E as ->. apply elem_of_list_lookup. exists (N.to_nat (h_id h)).
  unfold alive_of. rewrite list_lookup_imap, Eg. cbn. rewrite N2Nat.id. by destruct h.
Qed.
Theorem C72_order_refuted :
  ∃ U body n i cs ss s stages bs tss1 k1 cs1 tss2 k2 cs2,
    u_wf U ∧ ready U n i cs ss s ∧ sr_failed s = false ∧ stages_of stages bs ∧ Forall (Forall (well_behaved U body)) stages ∧
    Forall (typed U) (body <$> concat bs) ∧
    frames_run U i ((λ b : list sysm, body <$> b) <$> bs) cs tss1 k1 cs1 ∧ below_wrap (2 * (n + k1)) ∧ Forall (λ ts, independent (scripts_of ts)) tss1 ∧
    frames_run U i ((λ b : list sysm, body <$> b) <$> bs) cs tss2 k2 cs2 ∧ length tss2 = length tss1 ∧
    ∀ A f r1 r2, cs_regs cs1 !! i = Some r1 → cs_regs cs2 !! i = Some r2 → (∀ h b, (rg_has h [] r1).2 = Ok b → h ∈ A) → ¬ same_entities U A f r1 r2.
Proof.
  exists U0, body72', 2, 0, cs70, ss70, s70, bs72', bs72', (final72' (sched72d id)).1.1, (final72' (sched72d id)).1.2, (final72' (sched72d id)).2,
    (final72' (sched72d swap01)).1.1, (final72' (sched72d swap01)).1.2, (final72' (sched72d swap01)).2.
  split; [exact U0_wf|]. split; [exact ready70|]. split; [exact live71|].
  split. { exists [StageExec [[sys72c; sys72d]] []; StageExec [[sys72e]] []]. split; [|done]. repeat constructor; exists (Stage [] []); by vm_compute. }
  split.
  { assert (∀ (sy : sysm), (forallb (λ a, match a with ArgView cs => bool_decide ((false, u_ent U0) ∉ cs) | _ => true end) (sy_args sy)) = true →
      ∀ cs, ArgView cs ∈ sy_args sy → (false, u_ent U0) ∉ cs) as H.
    { intros sy Hb cs Hin. rewrite forallb_forall in Hb. apply elem_of_list_In, Hb in Hin. by apply bool_decide_eq_true in Hin. }
    apply Forall_cons; split; [apply Forall_cons; split; [|apply Forall_cons; split; [|done]]|apply Forall_cons; split; [apply Forall_cons; split; [|done]|done]].
    - split; [|apply H; by vm_compute]. split; [left|done].
    - split; [|apply H; by vm_compute]. split; [left|done].
    - split; [|apply H; by vm_compute]. split; [left|]. intros [[|[h|v] x]|]; try done. split; [right; left|done]. }
  split.
  { assert (∀ v : N, NoDup [(1%N, Val v); (2%N, Val 1)].*1 ∧ u_ent U0 ∉ [(1%N, Val v); (2%N, Val 1)].*1) as H.
    { intros v. split; cbn; [apply NoDup_cons; split; [|apply NoDup_singleton]|]; intros E; repeat (apply elem_of_cons in E as [E|E]; [done|]); by apply elem_of_nil in E. }
    apply Forall_cons; split; [split; [apply H|done]|apply Forall_cons; split; [split; [apply H|done]|apply Forall_cons; split; [|done]]].
    intros [[|[h|v] x]|]; try done. split; [|done]. split; [apply NoDup_singleton|]. intros E%elem_of_list_singleton. done. }
  split; [apply play72'; vm_compute; exact eq_refl|].
  split. { assert ((final72' (sched72d id)).1.2 ≤ 1000) as H by (apply Nat.leb_le; vm_compute; exact eq_refl). unfold below_wrap. lia. }
  split; [apply indep72; vm_compute; exact eq_refl|]. split; [apply play72'; vm_compute; exact eq_refl|]. split; [vm_compute; exact eq_refl|].
  intros A f r1 r2 E1 E2 Hall [_ Hs].
  assert (∃ h : handle, (rg_get h 2%N (default rg_init (cs_regs (final72' (sched72d id)).2 !! 0))).2 = Ok (CVal (Val 10)) ∧
    (rg_has h [] (default rg_init (cs_regs (final72' (sched72d id)).2 !! 0))).2 = Ok true) as (h & Hg & Hh).
  { exists (Handle 6 0). split; vm_compute; exact eq_refl. }
  rewrite E1 in Hg, Hh. cbn [default] in Hg, Hh. destruct (Hs h (Hall _ _ Hh)) as [H _]. apply (H 2%N (CVal (Val 10)) ltac:(done)) in Hg.
  assert (forallb (λ h, match (rg_get h 2%N (default rg_init (cs_regs (final72' (sched72d swap01)).2 !! 0))).2 with Ok (CVal (Val v)) => negb (N.eqb v 10) | _ => true end)
    (alive_of (default rg_init (cs_regs (final72' (sched72d swap01)).2 !! 0))) = true) as Hn by (vm_compute; exact eq_refl).
  rewrite E2 in Hn. change (default rg_init (Some r2)) with r2 in Hn. rewrite forallb_forall in Hn. specialize (Hn _ (proj1 (elem_of_list_In _ _) (get_alive _ _ _ _ Hg))).
  rewrite Hg in Hn. done.
Qed.

Print Assumptions C72_frames_partial.
Print Assumptions C72_outcome_partial.
Print Assumptions C72_order_refuted.
