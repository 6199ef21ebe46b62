(** C64: the systems of a batch on the registry. *)
From Verif Require Import Base Bits Layout PropLayout HandlePool HandleSpec HandlePoolProofs SparseMap SparseMapProofs
  HashTable HashTableProofs HashTableMap Bitset BitsetProofs ComponentSet ComponentSetProofs
  Chunk ChunkProofs Archetype ArchetypeProofs Registry RegistryStore RegistryProofs View ViewProofs RegSpec RegSpecProofs
  RegObs RegRun PropRegistry ParallelFor ParEach ParEachProofs Access Stage PropStage Command CommandSpec SysCommand SystemRun SystemRunProofs.

(** The views among the parameters of a system; a view of C& requests C mutable. *)
Definition arg_views (a : sysarg) : list (list vreq) :=
  match a with ArgView cs => [(λ x : bool * N, VReq x.2 (negb x.1)) <$> cs] | _ => [] end.
Definition sys_views (s : sysm) : list (list vreq) := concat (arg_views <$> sy_args s).

(** The body only goes over view parameters of its system, and calls a command_writer if it has one. *)
Fixpoint uses_views (vs : list (list vreq)) (writer : Prop) (p : sprog) : Prop :=
  match p with
  | PRet => True
  | PEach rq f k => rq ∈ vs ∧ ∀ log, uses_views vs writer (k log)
  | PSingle rq k => rq ∈ vs ∧ ∀ x, uses_views vs writer (k x)
  | PPar nw rq f k => 0 < nw ∧ rq ∈ vs ∧ uses_views vs writer k
  | PCmd _ k => writer ∧ uses_views vs writer k
  end.

(** A call of a callback is next: that of task [i] of the batch, or of the task [a] of its par_each; through a view
    with the requests [rq], in a chunk, with these pointers.  [a] is 0 outside of par_each. *)
Inductive call_next (c : bconf) : nat → nat → list vreq → pchunk → list N → Prop :=
| InEach (i : nat) rq f k todo ch ps ep log out : bc_tasks c !! i = Some (TIn rq f k (PTask todo (Some (ch, ps, ep))) log out) →
    it_eqb ps ep = false → call_next c i 0 rq ch ps
| InPar (i a : nat) rq f k ts todo ch ps ep out : bc_tasks c !! i = Some (TPar rq f k ts out) →
    ts !! a = Some (PTask todo (Some (ch, ps, ep))) → it_eqb ps ep = false → call_next c i a rq ch ps.

Lemma elem_views s rq : rq ∈ sys_views s ↔ ∃ cs, ArgView cs ∈ sy_args s ∧ rq = (λ x : bool * N, VReq x.2 (negb x.1)) <$> cs.
Proof.
  unfold sys_views. rewrite elem_of_list_In, in_concat. setoid_rewrite <- elem_of_list_In. setoid_rewrite elem_of_list_fmap. split.
  - intros (l & (a & -> & Ha) & Hx). destruct a; cbn in Hx; try by apply elem_of_nil in Hx. apply elem_of_list_singleton in Hx. eauto.
  - intros (cs & Ha & ->). eexists. split; [by exists (ArgView cs)|]. left.
Qed.

Lemma prog_ok_views vs writer p : uses_views vs writer p → prog_ok vs p.
Proof.
  induction p as [|rq f k IH|rq k IH|nw rq f k IH|cm k IH]; cbn;
    [done|intros [? ?]; split; auto|intros [? ?]; split; auto|intros (? & ? & ?); auto|intros [? ?]; auto].
Qed.

Lemma sub_forall {A} (P : A → Prop) l1 l2 : sublist l1 l2 → Forall P l2 → Forall P l1.
Proof. induction 1; [done|..]; intros [? ?]%Forall_cons; [constructor|]; auto. Qed.

Lemma zip_fmap_elem {A B} (g : A → B) l x y : (x, y) ∈ zip l (g <$> l) → x ∈ l ∧ y = g x.
Proof.
  induction l as [|z l IH]; cbn; [by intros ?%elem_of_nil|]. intros [E|H]%elem_of_cons.
  - injection E as -> ->. split; [left|done].
  - destruct (IH H). split; [by right|done].
Qed.

Section props.
Context (U : universe).
Hypothesis HU : u_wf U.

(** What the systems run.  No view requests entity&: chunk.hpp:221 does not compile. *)
Context (body : sysm → sprog).
Definition well_behaved (sy : sysm) : Prop :=
  uses_views (sys_views sy) (ArgCommands ∈ sy_args sy) (body sy) ∧ ∀ cs, ArgView cs ∈ sy_args sy → (false, u_ent U) ∉ cs.

Lemma views_ok sy : well_behaved sy → Forall (view_ok U) (sys_views sy).
Proof.
  intros [_ Hent]. apply Forall_forall. intros rq Hin. apply elem_views in Hin as (cs & Ha & ->). pose proof (sy_ok sy) as Hok.
  rewrite Forall_forall in Hok. destruct (Hok _ Ha) as [Hne _]. split.
  - by destruct cs.
  - intros Hin. apply elem_of_list_fmap in Hin as ([[] c] & E & Hin); [done|]. cbn in E. injection E as <-. by apply (Hent _ Ha).
Qed.

Lemma views_sep s1 s2 rq1 rq2 : ¬ sys_conflict s1 s2 → rq1 ∈ sys_views s1 → rq2 ∈ sys_views s2 → sep rq1 rq2 ∧ sep rq2 rq1.
Proof.
  intros Hn H1 H2. apply elem_views in H1 as (cs1 & A1 & ->). apply elem_views in H2 as (cs2 & A2 & ->).
  assert (∀ (cs : list (bool * N)) (c : N), VReq c true ∈ (λ x : bool * N, VReq x.2 (negb x.1)) <$> cs → (false, c) ∈ cs) as Hw.
  { intros cs c Hin. apply elem_of_list_fmap in Hin as ([[] c'] & E & Hin); [done|]. by injection E as ->. }
  assert (∀ (cs : list (bool * N)) (c : N), c ∈ vr_cid <$> ((λ x : bool * N, VReq x.2 (negb x.1)) <$> cs) → c ∈ cs.*2) as Hr.
  { intros cs c Hin. rewrite <- list_fmap_compose in Hin. exact Hin. }
  split; intros c Hc1 Hc2; apply Hn; exists c.
  - left. split; [by exists (ArgView cs1); split; [|apply Hw]|]. left. exists (ArgView cs2). split; [done|]. by apply Hr.
  - right. split; [by exists (ArgView cs2); split; [|apply Hw]|]. left. exists (ArgView cs1). split; [done|]. by apply Hr.
Qed.

Lemma batch_sep (b : list sysm) : (∀ (i j : nat) s1 s2, i < j → b !! i = Some s1 → b !! j = Some s2 → ¬ sys_conflict s1 s2) →
  separate_views (sys_views <$> b).
Proof.
  intros Hb i j vs1 vs2 rq1 rq2 Hij Hi Hj H1 H2. rewrite list_lookup_fmap in Hi, Hj. apply fmap_Some in Hi as (s1 & Hi & ->).
  apply fmap_Some in Hj as (s2 & Hj & ->). destruct (decide (i < j)).
  - by apply (views_sep s1 s2 rq1 rq2 (Hb i j s1 s2 ltac:(done) Hi Hj)).
  - by apply (views_sep s2 s1 rq2 rq1 (Hb j i s2 s1 ltac:(lia) Hj Hi)).
Qed.

Lemma batch_progs (b : list sysm) : Forall well_behaved b → Forall2 prog_ok (sys_views <$> b) (body <$> b).
Proof. intros H. apply Forall2_fmap. apply Forall_Forall2_diag. eapply Forall_impl; [exact H|]. intros sy [Hs _]. by eapply prog_ok_views. Qed.

Lemma batch_views (b : list sysm) : Forall well_behaved b → Forall (Forall (view_ok U)) (sys_views <$> b).
Proof. intros H. apply Forall_fmap. eapply Forall_impl; [exact H|]. intros sy. apply views_ok. Qed.

Lemma step_live x : (∃ out, x = TAt PRet out) ∨ ∃ a m, th_step U a x = Some m.
Proof.
  destruct x as [[] out|? ? ? t ? ?|rq f k ts out]; try (right; exists 0; eexists; done); [left; by exists out|..]; right.
  - exists 0. cbn [th_step]. destruct (pe_step _ _ _ t); by eexists.
  - cbn [th_step]. destruct (decide (Exists (λ t, is_Some (pe_step U rq f t)) ts)) as [Hex|Hno].
    + apply Exists_exists in Hex as (t & Ht & [m Em]). apply elem_of_list_lookup in Ht as [a Ha]. exists a. rewrite Ha. cbn [mbind option_bind]. rewrite Em. by eexists.
    + exists (length ts). rewrite lookup_ge_None_2 by done. cbn [mbind option_bind].
      assert (forallb (λ t, match t with PTask [] None => true | _ => false end) ts = true) as ->; [|by eexists].
      apply forallb_forall. intros t Ht. destruct (pe_step U rq f t) as [m|] eqn:Em; [exfalso; apply Hno, Exists_exists; exists t; by rewrite elem_of_list_In, Em|].
      by destruct t as [[] [[[]]|]].
Qed.

Lemma batch_good (ss main : list sysm) e st b n r s : stage_create sys_pat (Stage ss main) = Some (e, st) → b ∈ se_batches e →
  Forall well_behaved ss → reached U n r s → below_wrap (2 * n) → sr_failed s = false →
  ∃ hp iss, rinv U (negb (sr_leaky s)) (2 * n) r iss (sr_dead s) (sr_pending s) hp (sr_world s) ∧ separate_views (sys_views <$> b) ∧
    ∃ outs r' bound, run_progs U (body <$> b) r = (r', Ok outs) ∧
    (∀ k c, nsteps (b_run U) k (b_start (body <$> b) r) c → k ≤ bound) ∧
    ∀ c, rtc (b_run U) (b_start (body <$> b) r) c →
      bgood U (negb (sr_leaky s)) (2 * n) iss (sr_dead s) (sr_pending s) r hp (sys_views <$> b) c ∧
      (∀ (i a : nat) x m, bc_tasks c !! i = Some x → th_step U a x = Some m → ∃ r'' x', m (bc_reg c) = (r'', Ok x')) ∧
      (b_done c → c = BConf (TAt PRet <$> outs) r').
Proof.
  intros He Hb Hwb Hr Hbw Hf. destruct (reached_ri U HU _ _ _ Hr Hbw) as (iss & hp & [_ H Hnn]). specialize (Hnn Hf).
  destruct (C31_batches ss main) as (bs & He' & _ & Hbs). rewrite He in He'. injection He' as -> _. cbn in Hb.
  destruct (Hbs b Hb) as (_ & Hsub & Hnc).
  assert (Forall well_behaved b) as Hwb' by (by eapply sub_forall).
  exists hp, iss. split; [done|]. split; [by apply batch_sep|].
  destruct (batch_spec U HU _ _ _ _ _ r hp _ H Hnn _ _ (batch_views b Hwb') (batch_sep b Hnc) (batch_progs b Hwb')) as (outs & r' & bound & E & _ & Hbd & Hall).
  exists outs, r', bound. done.
Qed.

(** Whatever the interleaving of a batch: no step is undefined, there is a next step until all systems have
    returned, the number of steps is bounded, and at the end the registry is the one obtained by running the
    systems of the batch one after another, and every system has made the calls of its command_writer that it
    makes then. *)
Theorem C64_batch (ss main : list sysm) e st b n r s : stage_create sys_pat (Stage ss main) = Some (e, st) → b ∈ se_batches e →
  Forall well_behaved ss → reached U n r s → below_wrap (2 * n) → sr_failed s = false →
  ∃ outs r' bound, run_progs U (body <$> b) r = (r', Ok outs) ∧
    (∀ k c, nsteps (b_run U) k (b_start (body <$> b) r) c → k ≤ bound) ∧
    ∀ c, rtc (b_run U) (b_start (body <$> b) r) c →
      (∀ (i a : nat) x m, bc_tasks c !! i = Some x → th_step U a x = Some m → ∃ r'' x', m (bc_reg c) = (r'', Ok x')) ∧
      (b_done c ∨ ∃ c', b_run U c c') ∧
      (b_done c → c = BConf (TAt PRet <$> outs) r').
Proof.
  intros He Hb Hwb Hr Hbw Hf.
  destruct (batch_good ss main e st b n r s He Hb Hwb Hr Hbw Hf) as (hp & iss & _ & _ & outs & r' & bound & E & Hbd & Hall).
  exists outs, r', bound. split; [done|]. split; [done|]. intros c Hc. destruct (Hall c Hc) as (_ & Hok & Hfin). split; [done|]. split; [|done].
  assert (Forall (λ x, ∃ out, x = TAt PRet out) (bc_tasks c) ∨ ∃ (i a : nat) x m, bc_tasks c !! i = Some x ∧ th_step U a x = Some m) as [Hd|(i & a & x & m & Hi & Hm)].
  { clear. induction (bc_tasks c) as [|x l IH]; [by left|]. destruct (step_live x) as [Hx|(a & m & Hm)]; [|right; by exists 0, a, x, m].
    destruct IH as [Hl|(i & a & y & m & Hi & Hm)]; [left; by constructor|right; by exists (S i), a, y, m]. }
  - by left.
  - right. destruct (Hok i a x m Hi Hm) as (r'' & x' & Er). eexists. by eapply BRun.
Qed.

Lemma run_progs_app ps : ∀ ps' r r1 r2 o1 o2, run_progs U ps r = (r1, Ok o1) → run_progs U ps' r1 = (r2, Ok o2) → run_progs U (ps ++ ps') r = (r2, Ok (o1 ++ o2)).
Proof.
  induction ps as [|p ps IH]; intros ps' r r1 r2 o1 o2 E1 E2; [by injection E1 as -> <-|]. cbn [app run_progs] in *. unfold bind in *.
  destruct (run_prog U p [] r) as [r' [out|?|]]; [|done|done]. destruct (run_progs U ps r') as [r'' [os|?|]] eqn:E; [|done|done].
  injection E1 as -> <-. by rewrite (IH _ _ _ _ _ _ E E2).
Qed.

Lemma batches_det (bs : list (list sysm)) sl n iss dd pend :
  (∀ b, b ∈ bs → ∀ (i j : nat) s1 s2, i < j → b !! i = Some s1 → b !! j = Some s2 → ¬ sys_conflict s1 s2) →
  (∀ b, b ∈ bs → Forall well_behaved b) →
  ∀ r hp w, nonull r → rinv U sl n r iss dd pend hp w →
  ∃ outs1 r1, run_progs U (body <$> concat bs) r = (r1, Ok outs1) ∧
    ∀ outs r', stage_run U ((λ b : list sysm, body <$> b) <$> bs) r outs r' ↔ outs = outs1 ∧ r' = r1.
Proof.
  intros Hnc Hwb'. induction bs as [|b bs IH]; intros r hp w Hnn H.
  - exists [], r. split; [done|]. intros outs r'. split; [by inversion 1|]. intros [-> ->]. constructor.
  - pose proof (Hwb' b ltac:(by left)) as Hb.
    destruct (batch_spec U HU _ _ _ _ _ r hp w H Hnn _ _ (batch_views b Hb) (batch_sep b (Hnc b ltac:(by left))) (batch_progs b Hb)) as (o2 & r2 & bound & E & [hp2 Hg2] & Hbd & Hall).
    pose proof Hg2 as ([w2 H2] & _). pose proof (rgood_nonull U _ _ _ _ _ r hp Hnn _ _ Hg2) as Hnn2.
    destruct (IH (λ b' Hb', Hnc b' ltac:(by right)) (λ b' Hb', Hwb' b' ltac:(by right)) r2 hp2 w2 Hnn2 H2) as (o1 & r1 & E1 & Hr1). exists (o2 ++ o1), r1. split.
    + cbn [concat]. rewrite fmap_app. by eapply run_progs_app.
    + intros outs r'. rewrite fmap_cons. split.
      * inversion 1 as [|ps pss ? c os ? Hc Hd Hrest]; subst. destruct (Hall c Hc) as (_ & _ & Hfin). rewrite (Hfin Hd) in Hrest |- *. cbn [bc_reg bc_tasks] in *.
        apply Hr1 in Hrest as [-> ->]. split; [|done]. f_equal. rewrite <- list_fmap_compose. apply list_fmap_id.
      * intros [-> ->]. destruct (progs_in_order U HU _ _ _ _ _ r hp w H Hnn _ _ [] r hp (batch_views b Hb) (batch_progs b Hb) (rgood_start U _ _ _ _ _ _ _ _ H)) as (o2' & r2' & E' & Hrun & _).
        rewrite E in E'. injection E' as <- <-. cbn [app] in Hrun.
        assert (o2 = out_of <$> (TAt PRet <$> o2)) as Eo by (rewrite <- list_fmap_compose; symmetry; apply list_fmap_id). rewrite Eo at 1.
        pose proof (SRcons U (body <$> b) ((λ b : list sysm, body <$> b) <$> bs) r (BConf (TAt PRet <$> o2) r2) o1 r1) as Hs. cbn [bc_tasks bc_reg] in Hs. apply Hs; [exact Hrun|apply Forall_fmap, Forall_true; intros out; by exists out|]. by apply Hr1.
Qed.

(** A stage without main-thread systems: it ends, and in no other registry than the one obtained by running its
    systems one after another, in the order of the batches, nor with other calls of the command_writers. *)
Theorem C64_stage (ss : list sysm) e st n r s : stage_create sys_pat (Stage ss []) = Some (e, st) →
  Forall well_behaved ss → reached U n r s → below_wrap (2 * n) → sr_failed s = false →
  concat (se_batches e) ≡ₚ ss ∧
  ∃ outs1 r1, run_progs U (body <$> concat (se_batches e)) r = (r1, Ok outs1) ∧
    ∀ outs r', stage_run U ((λ b : list sysm, body <$> b) <$> se_batches e) r outs r' ↔ outs = outs1 ∧ r' = r1.
Proof.
  intros He Hwb Hr Hbw Hf. destruct (reached_ri U HU _ _ _ Hr Hbw) as (iss & hp & [_ H Hnn]). specialize (Hnn Hf).
  destruct (C31_batches ss []) as (bs & He' & Hp & Hbs). rewrite He in He'. injection He' as -> _. cbn [se_batches]. split; [done|].
  assert (∀ b, b ∈ bs → ∀ (i j : nat) s1 s2, i < j → b !! i = Some s1 → b !! j = Some s2 → ¬ sys_conflict s1 s2) as Hnc by (intros b Hb; by apply Hbs).
  assert (∀ b, b ∈ bs → Forall well_behaved b) as Hwb' by (intros b Hb; eapply sub_forall; [apply (Hbs b Hb)|done]). clear Hwb.
  by eapply batches_det.
Qed.

Lemma call_good iss sl n dd pend r hp vss c (i a : nat) rq ch ps : bgood U sl n iss dd pend r hp vss c → call_next c i a rq ch ps →
  ∃ vs ep x, vss !! i = Some vs ∧ rq ∈ vs ∧ it_eqb ps ep = false ∧ chunk_good U rq r hp ch ∧
    x ≤ length (cplaces hp ch) ∧ ps = ptrs (bl := pc_blocks ch) rq x ∧ ep = ptrs (bl := pc_blocks ch) rq (length (cplaces hp ch)).
Proof.
  intros [Hts _] Hn. destruct Hn as [i rq f k todo ch ps ep log out Hi He|i a rq f k ts todo ch ps ep out Hi Ha He].
  - destruct (Forall2_lookup_r _ _ _ _ _ Hts Hi) as (vs & Hv & Rq & _ & L & _ & L1 & [Hc (x & Hx & Eps & Eep & _)] & _).
    by exists vs, ep, x.
  - destruct (Forall2_lookup_r _ _ _ _ _ Hts Hi) as (vs & Hv & Rq & _ & Ls & Hls & _).
    destruct (Forall2_lookup_l _ _ _ _ _ Hls Ha) as (L & HL & (_ & L1 & [Hc (x & Hx & Eps & Eep & _)] & _)).
    by exists vs, ep, x.
Qed.

(** The same pointer in two calls in one chunk is that of the same component and row. *)
Lemma same_pointer sl n r iss dd pend hp w rq ch ps ep x rq' ch' ps' ep' y q p : rinv U sl n r iss dd pend hp w →
  chunk_good U rq r hp ch → x ≤ length (cplaces hp ch) → ps = ptrs (bl := pc_blocks ch) rq x → ep = ptrs (bl := pc_blocks ch) rq (length (cplaces hp ch)) → it_eqb ps ep = false →
  chunk_good U rq' r hp ch' → y ≤ length (cplaces hp ch') → ps' = ptrs (bl := pc_blocks ch') rq' y → ep' = ptrs (bl := pc_blocks ch') rq' (length (cplaces hp ch')) → it_eqb ps' ep' = false →
  pc_arch ch = pc_arch ch' → pc_index ch = pc_index ch' → (q, p) ∈ zip rq ps → p ∈ ps' →
  q ∈ rq ∧ vr_cid q ∈ vr_cid <$> rq' ∧ x = y ∧ x < length (cplaces hp ch) ∧ cplaces hp ch = cplaces hp ch'.
Proof.
  intros H (a & cs & rowss & rows & ar0 & Ea & Ha & Hrq & Hk & Har & Eb) Hx Eps Eep Hni
    (a' & cs' & rowss' & rows' & ar0' & Ea' & Ha' & Hrq' & Hk' & Har' & Eb') Hy Eps' Eep' Hnj Earch Eidx Hqp Hp.
  assert (a' = a) as -> by congruence. rewrite Ha in Ha'. injection Ha' as <- <-. rewrite Har in Har'. injection Har' as <-.
  rewrite <- Eidx, Hk in Hk'. injection Hk' as <-.
  destruct (st_arch U _ r hp a _ (rv_st _ _ _ _ _ _ _ _ _ H) Ha) as (ar1 & Har1 & Hrep). cbn [fst snd] in Hrep.
  rewrite Har in Har1. injection Har1 as <-. pose proof (ap_bl _ _ _ _ _ Hrep) as Hbl.
  destruct (ar_chunk U _ ar0 cs _ _ _ Hrep Hk) as (kk & Hkk & Hck). pose proof (cr_le _ _ _ _ _ _ _ Hck) as Hmax.
  pose proof (cplaces_good hp ch a cs rowss rows Ea Ha Hk) as Ec. pose proof (cplaces_good hp ch' a cs rowss rows Ea' Ha ltac:(congruence)) as Ec'.
  assert (length (cplaces hp ch) = length rows) as El by (rewrite Ec, fmap_length, seq_length; done).
  assert (length (cplaces hp ch') = length rows) as El' by (rewrite Ec', fmap_length, seq_length; done).
  rewrite <- Eb in Hbl. assert (pc_blocks ch' = pc_blocks ch) as Ebb by congruence. rewrite Ebb in Eps', Eep'.
  subst ps ps' ep ep'. rewrite (it_eqb_ok U HU Hbl rq Hrq) in Hni by (intros ->; by apply elem_of_nil in Hqp).
  rewrite (it_eqb_ok U HU Hbl rq' Hrq') in Hnj by (intros ->; by apply elem_of_nil in Hp).
  apply bool_decide_eq_false in Hni, Hnj. apply zip_fmap_elem in Hqp as [Hq ->].
  unfold ptrs in Hp. apply elem_of_list_fmap in Hp as (q' & Ead & Hq').
  apply (ad_inj U Hbl) in Ead as [Ecc Exy]; [|by apply Hrq|by apply Hrq'|lia|lia].
  split; [done|]. split; [apply elem_of_list_fmap; by exists q'|]. split; [done|]. split; [lia|]. by rewrite Ec, Ec', Eidx.
Qed.

(** When a call of a callback is next, the objects that the callback may write are none of those that another
    callback that may be called next gets: neither one of another system nor one of another task of the same
    par_each. *)
Theorem C64_no_race (ss main : list sysm) e st b n r s c (i a j a' : nat) rq ch ps rq' ch' ps' :
  stage_create sys_pat (Stage ss main) = Some (e, st) → b ∈ se_batches e →
  Forall well_behaved ss → reached U n r s → below_wrap (2 * n) → sr_failed s = false →
  rtc (b_run U) (b_start (body <$> b) r) c → (i, a) ≠ (j, a') →
  call_next c i a rq ch ps → call_next c j a' rq' ch' ps' →
  pc_arch ch = pc_arch ch' → pc_index ch = pc_index ch' →
  ∀ q p, (q, p) ∈ zip rq ps → vr_mut q = true → p ∉ ps'.
Proof.
  intros He Hb Hwb Hr Hbw Hf Hc Hne Hi Hj Earch Eidx q p Hqp Hmut Hp.
  destruct (batch_good ss main e st b n r s He Hb Hwb Hr Hbw Hf) as (hp & iss & H & Hsep & outs & r' & bound & E & Hbd & Hall).
  destruct (Hall c Hc) as (Hbg & _ & _). destruct (decide (i = j)) as [<-|Hij].
  - pose proof Hbg as [Hts _]. destruct Hi as [i rq f k todo ch ps ep log out Hi Hei|i a rq f k ts todo ch ps ep out Hi Hta Hei];
      inversion Hj as [? rq2 f2 k2 todo2 ch2 ps2 ep2 log2 out2 Hi2 He2|? ? rq2 f2 k2 ts2 todo2 ch2 ps2 ep2 out2 Hi2 Hta2 He2]; subst; rewrite Hi in Hi2; try done.
    injection Hi2 as <- <- <- <- <-. assert (a ≠ a') as Haa by congruence.
    destruct (Forall2_lookup_r _ _ _ _ _ Hts Hi) as (vs & Hv & Rq & _ & Ls & Hls & Hnd).
    destruct (Forall2_lookup_l _ _ _ _ _ Hls Hta) as (La & HLa & (_ & La1 & [Hca (x & Hx & Eps & Eep & ->)] & ->)).
    destruct (Forall2_lookup_l _ _ _ _ _ Hls Hta2) as (Lb & HLb & (_ & Lb1 & [Hcb (y & Hy & Eps' & Eep' & ->)] & ->)).
    destruct (same_pointer _ _ _ _ _ _ hp _ rq ch ps ep x rq ch' ps' ep2 y q p H Hca Hx Eps Eep Hei Hcb Hy Eps' Eep' He2 Earch Eidx Hqp Hp) as (_ & _ & <- & Hlt & Ecp).
    apply lookup_lt_is_Some_2 in Hlt as [pl Hpl].
    eapply (NoDup_concat_disjoint Ls a a'); [exact Hnd|exact Haa|exact HLa|exact HLb| |]; apply elem_of_app; left; [|rewrite <- Ecp]; rewrite (drop_S _ _ _ Hpl); left.
  - destruct (call_good _ _ _ _ _ _ _ _ _ _ _ _ _ _ Hbg Hi) as (vi & ep & x & Hvi & Rqi & Hei & Hci & Hx & Eps & Eep).
    destruct (call_good _ _ _ _ _ _ _ _ _ _ _ _ _ _ Hbg Hj) as (vj & ep' & y & Hvj & Rqj & Hej & Hcj & Hy & Eps' & Eep').
    destruct (same_pointer _ _ _ _ _ _ hp _ rq ch ps ep x rq' ch' ps' ep' y q p H Hci Hx Eps Eep Hei Hcj Hy Eps' Eep' Hej Earch Eidx Hqp Hp) as (Hq & Hin & _).
    destruct q as [cc []]; [|done]. by apply (Hsep i j vi vj rq rq' Hij Hvi Hvj Rqi Rqj cc Hq).
Qed.

(** Nor does single() of another system read them: they are no object of a component of its view. *)
Theorem C64_no_race_single (ss main : list sysm) e st b n r s c (i a0 j : nat) rq ch ps rq' k' out' :
  stage_create sys_pat (Stage ss main) = Some (e, st) → b ∈ se_batches e →
  Forall well_behaved ss → reached U n r s → below_wrap (2 * n) → sr_failed s = false →
  rtc (b_run U) (b_start (body <$> b) r) c →
  call_next c i a0 rq ch ps →
  bc_tasks c !! j = Some (TAt (PSingle rq' k') out') →
  ∀ q p q' (a : nat) ar ck row, (q, p) ∈ zip rq ps → vr_mut q = true → q' ∈ rq' →
    pc_arch ch = Some a → rg_heap (bc_reg c) !! a = Some ar → ar_chunks ar !! pc_index ch = Some ck → row < ck_size ck →
    (fetch_pointer (ar_blocks ar) (vr_cid q') row ck).2 ≠ Ok p.
Proof.
  intros He Hb Hwb Hr Hbw Hf Hc Hi Hj q p q' a1 ar ck row Hqp Hmut Hq' Earch Har' Hck' Hrow Hp.
  destruct (batch_good ss main e st b n r s He Hb Hwb Hr Hbw Hf) as (hp & iss & H & Hsep & outs & r' & bound & E & Hbd & Hall).
  assert (i ≠ j) as Hij by (intros <-; destruct Hi; congruence).
  destruct (Hall c Hc) as (Hbg & _ & _). pose proof Hbg as [Hts [hpc Hg]].
  destruct (Forall2_lookup_r _ _ _ _ _ Hts Hj) as (vj & Hvj & Rqj & _).
  destruct (call_good _ _ _ _ _ _ _ _ _ _ _ _ _ _ Hbg Hi) as (vi & ep & x & Hvi & Rqi & Hni & (a & cs & rowss & rows & ar0 & Ea & Ha & Hrq & Hk & Har & Eb) & Hx & Eps & Eep).
  rewrite Earch in Ea. injection Ea as <-. rename a1 into a.
  destruct Hg as ([w Hrc] & Hfr & Hsz).
  destruct (frame_arch U r (bc_reg c) a ar0 Hfr Har) as (ar2 & Har2 & (Em & Eb' & Ecm) & _). rewrite Har' in Har2. injection Har2 as <-.
  destruct (sizes_lookup hp hpc a (pc_index ch) cs rowss rows Hsz Ha Hk) as (rowss' & rows' & Ha' & Hk' & Elr).
  destruct (st_arch U _ _ hpc a _ (rv_st _ _ _ _ _ _ _ _ _ Hrc) Ha') as (ar1 & Har1 & Hrep). cbn [fst snd] in Hrep.
  rewrite Har' in Har1. injection Har1 as <-. pose proof (ap_bl _ _ _ _ _ Hrep) as Hbl.
  destruct (ar_chunk U _ ar cs _ _ _ Hrep Hk') as (kk & Hkk & Hck). rewrite Hck' in Hkk. injection Hkk as <-.
  pose proof (cr_le _ _ _ _ _ _ _ Hck) as Hmax. pose proof (cr_size _ _ _ _ _ _ _ Hck) as Hsize.
  assert (length (cplaces hp ch) = length rows) as El by (rewrite (cplaces_good hp ch a cs rowss rows Earch Ha Hk), fmap_length, seq_length; done).
  rewrite Eb, <- Eb' in Eps, Eep. subst ps ep.
  rewrite (it_eqb_ok U HU Hbl rq Hrq) in Hni by (intros ->; by apply elem_of_nil in Hqp).
  apply bool_decide_eq_false in Hni. apply zip_fmap_elem in Hqp as [Hq ->].
  destruct (decide (vr_cid q' ∈ u_ent U :: cs)) as [Hin|Hin].
  - rewrite (fetch_ok U Hbl) in Hp by done. cbn in Hp. injection Hp as Ead.
    apply (ad_inj U Hbl) in Ead as [Ec _]; [|done|by apply Hrq|lia|lia].
    destruct q as [cc []]; [|done]. apply (Hsep i j vi vj rq rq' Hij Hvi Hvj Rqi Rqj cc Hq). apply elem_of_list_fmap. by exists q'.
  - rewrite (fetch_none U Hbl) in Hp by done. done.
Qed.
End props.

(** * Examples *)

(** The steps of the tasks in a given order. *)
Fixpoint b_play (U : universe) (sched : list (nat * nat)) (c : bconf) : option bconf :=
  match sched with
  | [] => Some c
  | (i, a) :: sched =>
      x ← bc_tasks c !! i; m ← th_step U a x;
      match m (bc_reg c) with
      | (r', Ok x') => b_play U sched (BConf (<[i := x']> (bc_tasks c)) r')
      | _ => None
      end
  end.

Lemma b_play_run U sched : ∀ c c', b_play U sched c = Some c' → rtc (b_run U) c c'.
Proof.
  induction sched as [|[i a] sched IH]; intros c c' E; [injection E as <-; constructor|]. cbn in E.
  destruct (bc_tasks c !! i) as [t|] eqn:Hi; [|done]. cbn in E. destruct (th_step U a t) as [m|] eqn:Hm; [|done]. cbn in E.
  destruct (m (bc_reg c)) as [r' [x'|?|]] eqn:Er; [|done|done]. eapply rtc_l; [by eapply BRun|]. by apply IH.
Qed.

Lemma ex_ok12 : Forall arg_ok [ArgView [(false, 1%N); (true, 2%N)]]. Proof. by repeat constructor. Qed.
Lemma ex_ok23 : Forall arg_ok [ArgView [(true, 2%N)]; ArgView [(true, 2%N); (false, 3%N)]]. Proof. by repeat constructor. Qed.
Lemma ex_ok1 : Forall arg_ok [ArgView [(false, 1%N)]]. Proof. by repeat constructor. Qed.

(** A system that sets component 1 to component 2 plus one, one that sets component 3 to component 2 plus the
    component 2 that single() returns, one that doubles component 1, and one that doubles it with par_each and three
    workers. *)
Definition ex_s1 : sysm := Sysm 1 [ArgView [(false, 1%N); (true, 2%N)]] ex_ok12.
Definition ex_s2 : sysm := Sysm 2 [ArgView [(true, 2%N)]; ArgView [(true, 2%N); (false, 3%N)]] ex_ok23.
Definition ex_s3 : sysm := Sysm 3 [ArgView [(false, 1%N)]] ex_ok1.

Definition ex_f1 : callback := λ _ xs c,
  match xs with [_; CVal (Val v)] => if decide (c = 1%N) then Some (Val (v + 1)) else None | _ => None end.
Definition ex_f2 (y : N) : callback := λ _ xs c,
  match xs with [CVal (Val v); _] => if decide (c = 3%N) then Some (Val (v + y)) else None | _ => None end.
Definition ex_s4 : sysm := Sysm 4 [ArgView [(false, 1%N)]] ex_ok1.
Definition ex_f3 : callback := λ _ xs c,
  match xs with [CVal (Val v)] => if decide (c = 1%N) then Some (Val (2 * v)) else None | _ => None end.

Definition ex_body (sy : sysm) : sprog :=
  match sy_name sy with
  | 1 => PEach [VReq 1 true; VReq 2 false] ex_f1 (λ _, PRet)
  | 2 => PSingle [VReq 2 false] (λ x,
           PEach [VReq 2 false; VReq 3 true] (ex_f2 (match x with Some [CVal (Val v)] => v | _ => 0 end)) (λ _, PRet))
  | 3 => PEach [VReq 1 true] ex_f3 (λ _, PRet)
  | 4 => PPar 3 [VReq 1 true] (ex_f3 []) PRet
  | _ => PRet
  end.

Example ex_C64_well : Forall (well_behaved U0 ex_body) [ex_s1; ex_s2; ex_s3; ex_s4].
Proof.
  assert (∀ (sy : sysm), (forallb (λ a, match a with ArgView cs => bool_decide ((false, u_ent U0) ∉ cs) | _ => true end) (sy_args sy)) = true →
    ∀ cs, ArgView cs ∈ sy_args sy → (false, u_ent U0) ∉ cs) as H.
  { intros sy Hb cs Hin. rewrite forallb_forall in Hb. apply elem_of_list_In, Hb in Hin. by apply bool_decide_eq_true in Hin. }
  repeat constructor; try (apply H; by vm_compute).
Qed.
Example ex_C64_well3 : Forall (well_behaved U0 ex_body) [ex_s1; ex_s2; ex_s3].
Proof. exact (proj1 (proj1 (Forall_app _ [ex_s1; ex_s2; ex_s3] [ex_s4]) ex_C64_well)). Qed.
Example ex_C64_well4 : Forall (well_behaved U0 ex_body) [ex_s2; ex_s4].
Proof. pose proof ex_C64_well as H. rewrite !Forall_cons in H. destruct H as (_ & H2 & _ & H4 & _). exact (Forall_cons_2 _ _ _ H2 (Forall_cons_2 _ _ _ H4 (Forall_nil_2 _))). Qed.

Example ex_C64_batches : (map (map sy_name) ∘ se_batches ∘ fst) <$> stage_create sys_pat (Stage [ex_s1; ex_s2; ex_s3] []) = Some [[1; 2]; [3]].
Proof. by vm_compute. Qed.

Definition ex_obs (r : registry) : list (outcome cell) :=
  [(rg_get e0 1 r).2; (rg_get e0 2 r).2; (rg_get e0 3 r).2; (rg_get e2 1 r).2; (rg_get e2 2 r).2].

(** The systems of the first batch: after eight steps both are in the same chunk, before a call. *)
Definition ex_first : list (nat * nat) := [(0, 0); (0, 0); (0, 0); (0, 0); (0, 0); (1, 0); (1, 0); (1, 0)].
Definition ex_rest : list (nat * nat) := [(1, 0); (0, 0); (0, 0); (1, 0); (1, 0); (0, 0)].
Example ex_C64_run : ∃ c, rtc (b_run U0) (b_start (ex_body <$> [ex_s1; ex_s2]) r0) c ∧ b_done c ∧
  ex_obs (bc_reg c) = [Ok (CVal (Val 21)); Ok (CVal (Val 20)); Ok (CVal (Val 42)); Ok (CVal (Val 23)); Ok (CVal (Val 22))].
Proof.
  destruct (b_play U0 (ex_first ++ ex_rest) (b_start (ex_body <$> [ex_s1; ex_s2]) r0)) as [c|] eqn:E; [|by vm_compute in E].
  exists c. split; [by eapply b_play_run|]. vm_compute in E. injection E as <-. split; [by repeat econstructor|by vm_compute].
Qed.

Example ex_C64_same_chunk : ∃ c rq ch ps rq' ch' ps', rtc (b_run U0) (b_start (ex_body <$> [ex_s1; ex_s2]) r0) c ∧
  call_next c 0 0 rq ch ps ∧ call_next c 1 0 rq' ch' ps' ∧ pc_arch ch = pc_arch ch' ∧ pc_index ch = pc_index ch' ∧ length ps = 2 ∧ length ps' = 2.
Proof.
  destruct (b_play U0 ex_first (b_start (ex_body <$> [ex_s1; ex_s2]) r0)) as [c|] eqn:E; [|by vm_compute in E].
  exists c. apply b_play_run in E as E'. vm_compute in E. injection E as <-. do 6 eexists. split; [exact E'|].
  split; [eapply InEach; by vm_compute|]. split; [eapply InEach; by vm_compute|]. by vm_compute.
Qed.

(** The first system in a chunk while the second is about to call single(). *)
Example ex_C64_single : ∃ c rq ch ps rq' k' out', rtc (b_run U0) (b_start (ex_body <$> [ex_s1; ex_s2]) r0) c ∧
  call_next c 0 0 rq ch ps ∧ bc_tasks c !! 1 = Some (TAt (PSingle rq' k') out').
Proof.
  destruct (b_play U0 [(0, 0); (0, 0)] (b_start (ex_body <$> [ex_s1; ex_s2]) r0)) as [c|] eqn:E; [|by vm_compute in E].
  exists c. apply b_play_run in E as E'. vm_compute in E. injection E as <-. do 6 eexists. split; [exact E'|].
  split; [eapply InEach; by vm_compute|]. by vm_compute.
Qed.

(** A batch with par_each: two tasks of its loop and the other system are all before a call. *)
Definition ex_par : list (nat * nat) := [(1, 0); (1, 1); (0, 0); (0, 0); (1, 2); (0, 0)].
Definition ex_par_rest : list (nat * nat) := [(1, 1); (0, 0); (1, 0); (1, 2); (1, 0); (0, 0); (1, 1); (0, 0); (1, 2); (1, 5)].
Example ex_C64_par : ∃ c ch ch' ch2 ps ps' ps2, rtc (b_run U0) (b_start (ex_body <$> [ex_s2; ex_s4]) r0) c ∧
  call_next c 1 1 [VReq 1 true] ch ps ∧ call_next c 1 2 [VReq 1 true] ch' ps' ∧ call_next c 0 0 [VReq 2 false; VReq 3 true] ch2 ps2.
Proof.
  destruct (b_play U0 ex_par (b_start (ex_body <$> [ex_s2; ex_s4]) r0)) as [c|] eqn:E; [|by vm_compute in E].
  exists c. apply b_play_run in E as E'. vm_compute in E. injection E as <-. do 6 eexists. split; [exact E'|].
  split; [eapply InPar; by vm_compute|]. split; [eapply InPar; by vm_compute|eapply InEach; by vm_compute].
Qed.
Example ex_C64_par_run : ∃ c, rtc (b_run U0) (b_start (ex_body <$> [ex_s2; ex_s4]) r0) c ∧ b_done c ∧
  ex_obs (bc_reg c) = ex_obs (run_progs U0 (ex_body <$> [ex_s2; ex_s4]) r0).1.
Proof.
  destruct (b_play U0 (ex_par ++ ex_par_rest) (b_start (ex_body <$> [ex_s2; ex_s4]) r0)) as [c|] eqn:E; [|by vm_compute in E].
  exists c. split; [by eapply b_play_run|]. vm_compute in E. injection E as <-. split; [by repeat econstructor|by vm_compute].
Qed.
Example ex_C64_par_create : stage_create sys_pat (Stage [ex_s2; ex_s4] []) = Some (StageExec [[ex_s2; ex_s4]] [], Stage [] []).
Proof. by vm_compute. Qed.
Example ex_C64_par_batch := C64_batch U0 U0_wf ex_body _ [] _ _ _ 6 r0 s0 ex_C64_par_create (elem_of_list_here _ _) ex_C64_well4 ex_reached (bw_half 6 bw7) eq_refl.

Definition ex_exec : stage_exec sysm := StageExec [[ex_s1; ex_s2]; [ex_s3]] [].
Example ex_C64_create : stage_create sys_pat (Stage [ex_s1; ex_s2; ex_s3] []) = Some (ex_exec, Stage [] []).
Proof. by vm_compute. Qed.
Example ex_C64 : concat (se_batches ex_exec) ≡ₚ [ex_s1; ex_s2; ex_s3] ∧
  ∃ outs1 r1, run_progs U0 (ex_body <$> [ex_s1; ex_s2; ex_s3]) r0 = (r1, Ok outs1) ∧
    ∀ outs r', stage_run U0 ((λ b : list sysm, ex_body <$> b) <$> se_batches ex_exec) r0 outs r' ↔ outs = outs1 ∧ r' = r1 :=
  C64_stage U0 U0_wf ex_body _ ex_exec _ 6 r0 s0 ex_C64_create ex_C64_well3 ex_reached (bw_half 6 bw7) eq_refl.
Example ex_C64_stage_obs : ex_obs (run_progs U0 (ex_body <$> [ex_s1; ex_s2; ex_s3]) r0).1 =
  [Ok (CVal (Val 42)); Ok (CVal (Val 20)); Ok (CVal (Val 42)); Ok (CVal (Val 46)); Ok (CVal (Val 22))].
Proof. by vm_compute. Qed.

(** Conflicting systems, which no batch holds, may leave different registries. *)
Example ex_C64_conflict : ∃ c c', rtc (b_run U0) (b_start (ex_body <$> [ex_s1; ex_s3]) r0) c ∧ b_done c ∧
  rtc (b_run U0) (b_start (ex_body <$> [ex_s1; ex_s3]) r0) c' ∧ b_done c' ∧ ex_obs (bc_reg c) ≠ ex_obs (bc_reg c').
Proof.
  destruct (b_play U0 (replicate 8 (0, 0) ++ replicate 10 (1, 0)) (b_start (ex_body <$> [ex_s1; ex_s3]) r0)) as [c|] eqn:E; [|by vm_compute in E].
  destruct (b_play U0 (replicate 10 (1, 0) ++ replicate 8 (0, 0)) (b_start (ex_body <$> [ex_s1; ex_s3]) r0)) as [c'|] eqn:E'; [|by vm_compute in E'].
  exists c, c'. apply b_play_run in E as R, E' as R'. split; [exact R|]. clear R.
  vm_compute in E, E'. injection E as <-. injection E' as <-. split; [by repeat econstructor|]. split; [exact R'|]. split; [by repeat econstructor|]. by vm_compute.
Qed.

Print Assumptions C64_batch.
Print Assumptions C64_stage.
Print Assumptions C64_no_race.
Print Assumptions C64_no_race_single.
