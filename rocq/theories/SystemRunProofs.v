(** Every interleaving of the systems of a batch ends in the same registry. *)
From Verif Require Import Base Bits Layout PropLayout HandlePool HandleSpec HandlePoolProofs SparseMap SparseMapProofs
  HashTable HashTableProofs HashTableMap Bitset BitsetProofs ComponentSet ComponentSetProofs
  Chunk ChunkProofs Archetype ArchetypeProofs Registry RegistryStore RegistryProofs View ViewProofs
  ParallelFor PropParallelFor ParEach ParEachProofs Command CommandSpec SysCommand SystemRun.
Ltac Zify.zify_post_hook ::= Z.div_mod_to_equations.

(** * Confluence of a relation on the states of an invariant *)
Section confluence.
Context {C : Type} (R : C → C → Prop) (I F : C → Prop).
Hypothesis HI : ∀ c c', I c → R c c' → I c'.
Hypothesis HF : ∀ c c', F c → R c c' → False.
Hypothesis HD : ∀ c c1 c2, I c → R c c1 → R c c2 → c1 = c2 ∨ ∃ d, R c1 d ∧ R c2 d.

Lemma conf_first n c f c1 : I c → nsteps R n c f → F f → R c c1 → ∃ m, n = S m ∧ nsteps R m c1 f.
Proof.
  revert c c1. induction n as [|n IH]; intros c c1 Hc Hn Hf Hs.
  { inversion Hn; subst. exfalso. by eapply HF. }
  inversion Hn as [|? ? c2 ? Hs2 Hn2]; subst. exists n. split; [done|].
  destruct (HD c c1 c2 Hc Hs Hs2) as [->|(d & H1 & H2)]; [done|].
  destruct (IH c2 d (HI _ _ Hc Hs2) Hn2 Hf H2) as (m & -> & Hm). by eapply nsteps_l.
Qed.

Lemma conf_all n k c f c' : I c → nsteps R n c f → F f → nsteps R k c c' → k ≤ n ∧ nsteps R (n - k) c' f.
Proof.
  intros Hc Hn Hf Hk. revert n Hc Hn. induction Hk as [c|k c c1 c' Hs _ IH]; intros n Hc Hn.
  - split; [lia|]. by rewrite Nat.sub_0_r.
  - destruct (conf_first n c f c1 Hc Hn Hf Hs) as (m & -> & Hm). destruct (IH m (HI _ _ Hc Hs) Hm) as [H1 H2]. split; [lia|done].
Qed.
End confluence.

Lemma run_complete {C : Type} (R : C → C → Prop) (F : C → Prop) k : ∀ c, (∀ c' j, nsteps R j c c' → j ≤ k) →
  (∀ c', rtc R c c' → F c' ∨ ∃ c'', R c' c'') → ∃ c', rtc R c c' ∧ F c'.
Proof.
  induction k as [|k IH]; intros c Hk Hp; destruct (Hp c ltac:(done)) as [Hf|[c1 Hs]]; [by exists c| |by exists c|].
  - specialize (Hk c1 1 ltac:(by eapply nsteps_once)). lia.
  - destruct (IH c1) as (c' & Hr & Hf).
    + intros c' j Hj. specialize (Hk c' (S j) ltac:(by eapply nsteps_l)). lia.
    + intros c' Hr. apply Hp. by eapply rtc_l.
    + exists c'. split; [by eapply rtc_l|done].
Qed.

Lemma NoDup_concat_disjoint {A} (Ls : list (list A)) (a b : nat) La Lb x : NoDup (concat Ls) → a ≠ b → Ls !! a = Some La → Ls !! b = Some Lb →
  x ∈ La → x ∈ Lb → False.
Proof.
  revert a b. induction Ls as [|L Ls IH]; intros a b Hnd Hab Ha Hb Hxa Hxb; [done|]. cbn [concat] in Hnd. apply NoDup_app in Hnd as (_ & Hd & Hnd).
  assert (∀ (i : nat) Li, Ls !! i = Some Li → x ∈ Li → x ∈ concat Ls) as Hin.
  { intros i Li Hi Hx. rewrite elem_of_list_In, in_concat. exists Li. rewrite <- !elem_of_list_In. split; [by eapply elem_of_list_lookup_2|done]. }
  destruct a as [|a], b as [|b]; cbn in Ha, Hb; [done|..].
  - injection Ha as ->. apply (Hd x Hxa). by eapply Hin.
  - injection Hb as ->. apply (Hd x Hxb). by eapply Hin.
  - eapply (IH a b); eauto.
Qed.

Section sys.
Context (U : universe).
Hypothesis HU : u_wf U.

(** * Rows *)

(** The first view writes nothing that the second has. *)
Definition sep (rq1 rq2 : list vreq) : Prop := ∀ c, VReq c true ∈ rq1 → c ∉ vr_cid <$> rq2.
Definition view_ok (rq : list vreq) : Prop := rq ≠ [] ∧ VReq (u_ent U) true ∉ rq.

Lemma vals_sep rq1 rq2 g x : sep rq1 rq2 → row_vals U rq2 (row_upd rq1 g x) = row_vals U rq2 x.
Proof.
  intros Hs. unfold row_vals. assert (∀ c, c ∈ vr_cid <$> rq2 → rcell U (row_upd rq1 g x) c = rcell U x c) as Hc.
  { intros c Hc. unfold rcell. cbn [row_upd fst]. case_decide; [done|]. fold (row_upd rq1 g x). rewrite upd_lookup.
    destruct (x.2 !! c); [|done]. cbn. rewrite decide_False; [done|]. intros Hin. by apply (Hs c). }
  clear Hs. revert Hc. induction (vr_cid <$> rq2) as [|c l IH]; intros Hc; [done|]. cbn [omap list_omap].
  rewrite Hc by left. destruct (rcell U x c); [f_equal|]; apply IH; intros c' Hc'; apply Hc; by right.
Qed.

Lemma upd_comm rq1 rq2 g1 g2 x : sep rq1 rq2 → row_upd rq1 g1 (row_upd rq2 g2 x) = row_upd rq2 g2 (row_upd rq1 g1 x).
Proof.
  intros Hs. apply injective_projections; [done|]. apply map_eq. intros c. rewrite !upd_lookup.
  destruct (x.2 !! c) as [v|]; [|done]. cbn. f_equal.
  destruct (decide (VReq c true ∈ rq1)) as [H1|H1]; destruct (decide (VReq c true ∈ rq2)) as [H2|H2]; try done.
  exfalso. apply (Hs c H1). apply elem_of_list_fmap. by exists (VReq c true).
Qed.

Lemma upd_none rq x : row_upd rq (λ _, None) x = x.
Proof.
  apply injective_projections; [done|]. apply map_eq. intros c. rewrite upd_lookup. destruct (x.2 !! c); [|done].
  cbn. f_equal. by case_decide.
Qed.

Section run.
Context (s : bool) (n : nat) (iss dd pend : list handle).
Context (r0 : registry) (hp0 : store) (w0 : world) (Hr0 : rinv U s n r0 iss dd pend hp0 w0) (Hnn : nonull r0).

(** The registry while the systems of a batch run. *)
Definition rgood (r : registry) (hp : store) : Prop :=
  (∃ w, rinv U s n r iss dd pend hp w) ∧ rg_frame U r0 r ∧ same_sizes hp0 hp.

Lemma rgood_start : rgood r0 hp0.
Proof. split; [by exists w0|]. split; [apply rg_frame_refl|]. by apply Forall2_same. Qed.

Lemma rgood_eq r1 r2 hp : rgood r1 hp → rgood r2 hp → r1 = r2.
Proof. intros ([w1 H1] & F1 & _) ([w2 H2] & F2 & _). by eapply same_reg. Qed.

Lemma rgood_table r hp : rgood r hp → rg_table r = rg_table r0.
Proof. intros (_ & [E _] & _). rewrite E. done. Qed.

Lemma rgood_nonull r hp : rgood r hp → nonull r.
Proof. intros Hg. unfold nonull. rewrite (rgood_table _ _ Hg). exact Hnn. Qed.

(** The chunks of a view. *)
Lemma chunks_frame rq r : rg_frame U r0 r → ∀ l cs, pe_chunks U rq l r0 = (r0, Ok cs) → pe_chunks U rq l r = (r, Ok cs).
Proof.
  intros Hfr. induction l as [|e l IH]; intros cs E; [cbn in *; by injection E as <-|]. cbn [pe_chunks] in *.
  destruct e.2 as [a|] eqn:Ea; [|done].
  destruct (rg_heap r0 !! a) as [ar0|] eqn:Ha; [|unfold rg_arch, on_arch, bind at 1 in E; by rewrite Ha in E].
  rewrite (bind_ok _ _ _ _ _ (rg_arch_run _ _ _ Ha)) in E. unfold bind at 1 in E.
  destruct (pe_chunks U rq l r0) as [r1 [cs1|?|]] eqn:E1; [|done|done]. injection E as -> <-.
  destruct (frame_arch U r0 r a ar0 Hfr Ha) as (ar & Ha' & (Em & Eb & Ec) & _ & Fks).
  rewrite (bind_ok _ _ _ _ _ (rg_arch_run _ _ _ Ha')), (bind_ok _ _ _ _ _ (IH _ eq_refl)).
  assert (vw_match U ar = vw_match U ar0) as Emt by (unfold vw_match, ar_contains; by rewrite Ec).
  by rewrite Emt, Eb, <- (Forall2_length _ _ _ Fks).
Qed.

Lemma iter_entries : NoDup (ht_iter (rg_table r0)).*2 ∧ ∀ e, e ∈ ht_iter (rg_table r0) → ∃ a, e.2 = Some a ∧ is_Some (hp0 !! a).
Proof.
  destruct (entries_ok U s r0 hp0 (rv_st _ _ _ _ _ _ _ _ _ Hr0)) as [Hnd Hall].
  assert (∀ e, e ∈ ht_iter (rg_table r0) → e.2 ≠ None) as Hn.
  { intros [key v] He Ev. cbn in Ev. subst v. apply (Hnn key).
    pose proof (iter_perm bs_hash _ (si_twf _ _ _ _ (rv_st _ _ _ _ _ _ _ _ _ Hr0))) as Hit.
    rewrite Hit in He. by apply elem_of_map_to_list in He. }
  rewrite filter_all in Hnd by done. split; [done|]. intros e He. by apply Hall, Hn.
Qed.

Lemma chunks_ok0 rq : ∃ cs, Forall (chunk_good U rq r0 hp0) cs ∧ NoDup (pc_id <$> cs) ∧ ∀ r hp, rgood r hp →
  pe_chunks U rq (ht_iter (rg_table r)) r = (r, Ok cs).
Proof.
  destruct iter_entries as [Hnd Hall].
  destruct (chunks_good U HU rq s n iss dd pend r0 hp0 w0 Hr0 _ Hnd Hall) as (cs & E & Hg & Hid & _). exists cs. split; [done|].
  split; [done|]. intros r hp Hr. rewrite (rgood_table _ _ Hr). destruct Hr as (_ & Hf & _). by apply chunks_frame.
Qed.

(** The first row of a view: a place that depends on the sizes only. *)
Lemma head_rows (a : nat) cs : ∀ rowss pre, hp0 !! a = Some (cs, pre ++ rowss) → ∃ po, ∀ hp, same_sizes hp0 hp →
  ∀ x, hp !! a = Some x → head (concat (drop (length pre) x.2)) = po ≫= hrow hp ∧ ∀ q, po = Some q → is_Some (hrow hp q).
Proof.
  induction rowss as [|rows rowss IH]; intros pre Ha.
  - exists None. intros hp Hs [cs' rowss'] Hx. destruct (Forall2_lookup_l _ _ _ _ _ Hs Ha) as (y & Hy & _ & El). simplify_eq.
    cbn [fst snd] in *. apply (f_equal length) in El. rewrite !fmap_length, app_nil_r in El.
    split; [|done]. rewrite drop_ge by lia. done.
  - assert (∀ hp, same_sizes hp0 hp → ∀ x, hp !! a = Some x → ∃ rows', x.2 !! length pre = Some rows' ∧ length rows' = length rows) as Hrow.
    { intros hp Hs [cs' rowss'] Hx.
      destruct (sizes_lookup hp0 hp a (length pre) cs _ rows Hs Ha ltac:(by apply list_lookup_middle)) as (rowss2 & rows' & Hy & Hj & El).
      rewrite Hx in Hy. injection Hy as -> ->. by exists rows'. }
    destruct rows as [|x0 rows].
    + destruct (IH (pre ++ [[]])) as [po Hpo]; [by rewrite <- app_assoc|]. exists po. intros hp Hs x Hx.
      destruct (Hrow hp Hs x Hx) as (rows' & Hj & El). apply nil_length_inv in El. subst rows'.
      rewrite (drop_S _ _ _ Hj). cbn [concat app]. rewrite app_length, Nat.add_comm in Hpo. by apply Hpo.
    + exists (Some (a, (length pre, 0))). intros hp Hs x Hx. destruct (Hrow hp Hs x Hx) as (rows' & Hj & El).
      destruct rows' as [|y rows']; [done|]. assert (hrow hp (a, (length pre, 0)) = Some y) as E.
      { unfold hrow. cbn [fst snd]. rewrite Hx. by rewrite (at_lookup _ _ _ _ Hj). }
      rewrite (drop_S _ _ _ Hj). cbn [concat app head mbind option_bind]. split; [by rewrite E|]. intros q [= <-]. by rewrite E.
Qed.

Lemma first_place rq : ∀ l, ∃ po, ∀ hp, same_sizes hp0 hp →
  head (l ≫= arows U rq hp) = po ≫= hrow hp ∧ ∀ q, po = Some q → is_Some (hrow hp q).
Proof.
  induction l as [|e l [po IH]]; [by exists None|].
  assert (∃ po1, ∀ hp, same_sizes hp0 hp → head (arows U rq hp e) = po1 ≫= hrow hp ∧ ∀ q, po1 = Some q → is_Some (hrow hp q)) as [po1 H1].
  { destruct e.2 as [a|] eqn:Ee.
    2:{ exists None. intros hp _. unfold arows. by rewrite Ee. }
    destruct (hp0 !! a) as [[cs rowss]|] eqn:Ha.
    2:{ exists None. intros hp Hs. unfold arows. rewrite Ee. cbn [mbind option_bind]. destruct (hp !! a) eqn:Hx; [|done].
        destruct (Forall2_lookup_r _ _ _ _ _ Hs Hx) as (? & ? & _). congruence. }
    destruct (decide (req_in U rq cs)) as [Hin|Hin].
    - destruct (head_rows a cs rowss [] Ha) as [po1 H1]. exists po1. intros hp Hs.
      destruct (Forall2_lookup_l _ _ _ _ _ Hs Ha) as ([cs' rowss'] & Hx & Ec & _). cbn [fst] in Ec. subst cs'.
      specialize (H1 hp Hs _ Hx). cbn [length drop snd] in H1. unfold arows. rewrite Ee. cbn [mbind option_bind]. rewrite Hx. cbn [fst snd].
      rewrite decide_True by done. done.
    - exists None. intros hp Hs. destruct (Forall2_lookup_l _ _ _ _ _ Hs Ha) as ([cs' rowss'] & Hx & Ec & _). cbn [fst] in Ec. subst cs'.
      unfold arows. rewrite Ee. cbn [mbind option_bind]. rewrite Hx. cbn [fst snd]. rewrite decide_False by done. done. }
  destruct po1 as [q|].
  - exists (Some q). intros hp Hs. destruct (H1 hp Hs) as [E Hq]. destruct (Hq q eq_refl) as [x Hx]. split; [|done].
    rewrite bind_cons. cbn [mbind option_bind] in *. rewrite Hx in *. by destruct (arows U rq hp e).
  - exists po. intros hp Hs. destruct (H1 hp Hs) as [E _]. rewrite bind_cons. destruct (arows U rq hp e); [|done]. by apply IH.
Qed.

Lemma single_ok rq r hp : view_ok rq → rgood r hp →
  rg_single U rq r = (r, Ok (row_vals U rq <$> head (ht_iter (rg_table r0) ≫= arows U rq hp))).
Proof.
  intros [Hne _] Hg. unfold rg_single. rewrite (bind_ok _ _ r r r) by done. rewrite (rgood_table _ _ Hg).
  destruct iter_entries as [_ Hall]. destruct Hg as ([w Hr] & Hf & Hs).
  apply (first_archs_ok U HU rq Hne s r hp (rv_st _ _ _ _ _ _ _ _ _ Hr) (rv_full _ _ _ _ _ _ _ _ _ Hr)).
  intros e He. destruct (Hall e He) as (a & Ea & [x Hx]). exists a. split; [done|].
  destruct (Forall2_lookup_l _ _ _ _ _ Hs Hx) as (y & Hy & _). by exists y.
Qed.

(** * Threads *)

Fixpoint prog_ok (vs : list (list vreq)) (p : sprog) : Prop :=
  match p with
  | PRet => True
  | PEach rq f k => rq ∈ vs ∧ ∀ l, prog_ok vs (k l)
  | PSingle rq k => rq ∈ vs ∧ ∀ x, prog_ok vs (k x)
  | PPar nw rq f k => 0 < nw ∧ rq ∈ vs ∧ prog_ok vs k
  | PCmd _ k => prog_ok vs k
  end.

Definition thread_good (vs : list (list vreq)) (x : sthread) : Prop :=
  match x with
  | TAt p _ => prog_ok vs p
  | TIn rq f k t log _ => rq ∈ vs ∧ (∀ l, prog_ok vs (k l)) ∧ ∃ L, task_good U rq r0 hp0 t L
  | TPar rq f k ts _ => rq ∈ vs ∧ prog_ok vs k ∧ ∃ Ls, Forall2 (task_good U rq r0 hp0) ts Ls ∧ NoDup (concat Ls)
  end.

(** A step that leaves the registry alone, the same in every registry; or one that looks at one place through
    a view of the system and assigns there. *)
Definition step_quiet {X} (m : M registry X) (x' : X) : Prop := ∀ r hp, rgood r hp → m r = (r, Ok x').
Definition step_at {X} (m : M registry X) (q : place) (rq : list vreq) (g : list cell → cid → option val) (h : list cell → X) : Prop :=
  ∀ r hp, rgood r hp → ∃ y r' hp', hrow hp q = Some y ∧ m r = (r', Ok (h (row_vals U rq y))) ∧ rgood r' hp' ∧
    ∀ q', hrow hp' q' = if decide (q' = q) then Some (row_upd rq (g (row_vals U rq y)) y) else hrow hp q'.

Lemma quiet_map {X Y} (m : M registry X) x (F : X → Y) : step_quiet m x → step_quiet (let! x := m in ret (F x)) (F x).
Proof. intros H r hp Hg. by rewrite (bind_ok _ _ _ _ _ (H r hp Hg)). Qed.
Lemma at_map {X Y} (m : M registry X) q rq g h (F : X → Y) : step_at m q rq g h → step_at (let! x := m in ret (F x)) q rq g (λ v, F (h v)).
Proof.
  intros H r hp Hg. destruct (H r hp Hg) as (y & r' & hp' & Hy & E & Hg' & Hq). exists y, r', hp'. split; [done|].
  split; [|done]. by rewrite (bind_ok _ _ _ _ _ E).
Qed.

(** The steps of a loop over chunks. *)
Lemma task_spec rq g t L m : view_ok rq → task_good U rq r0 hp0 t L → pe_step U rq g t = Some m →
  (∃ t', task_good U rq r0 hp0 t' L ∧ step_quiet m (t', [])) ∨
  (∃ q L' t', L = q :: L' ∧ task_good U rq r0 hp0 t' L' ∧ step_at m q rq g (λ v, (t', [v]))).
Proof.
  intros [Hne Hent] (Htodo & L1 & Hcur & ->) Hm.
  destruct t as [todo [[[c ps] e]|]]; cbn [pt_todo pt_cur pe_step] in *.
  - destruct Hcur as [(a & cs & rowss & rows & ar0 & Ea & Ha & Hrq & Hj & Har & Eb) (i & Hi & -> & -> & ->)].
    pose proof (cplaces_good hp0 c a cs rowss rows Ea Ha Hj) as Ec.
    assert (length (cplaces hp0 c) = length rows) as El by (rewrite Ec, fmap_length, seq_length; done).
    destruct (st_arch U s r0 hp0 a _ (rv_st _ _ _ _ _ _ _ _ _ Hr0) Ha) as (ar1 & Har1 & Hrep). cbn [fst snd] in Hrep.
    rewrite Har in Har1. injection Har1 as <-. pose proof (ap_bl _ _ _ _ _ Hrep) as Hbl. rewrite <- Eb in Hbl.
    injection Hm as <-. rewrite (it_eqb_ok U HU Hbl rq Hrq _ _ Hne). destruct (decide (i = length (cplaces hp0 c))) as [E|E].
    + left. rewrite bool_decide_true by done. exists (PTask todo None). split.
      { split; [done|]. exists []. split; [done|]. by rewrite drop_ge by lia. }
      intros r hp _. done.
    + right. rewrite bool_decide_false by done. set (q := (a, (pc_index c, i))).
      exists q, (drop (S i) (cplaces hp0 c) ++ concat (cplaces hp0 <$> todo)),
        (PTask todo (Some (c, it_incr U rq (ptrs (bl := pc_blocks c) rq i), ptrs (bl := pc_blocks c) rq (length (cplaces hp0 c))))).
      split.
      { rewrite (drop_S _ q i); [done|]. rewrite Ec, list_lookup_fmap, lookup_seq_lt by lia. done. }
      split.
      { split; [done|]. exists (drop (S i) (cplaces hp0 c)). split; [|reflexivity].
        split; [exists a, cs, rowss, rows, ar0; done|]. exists (S i). split; [lia|]. split; [|done]. apply (it_incr_ok U Hbl rq Hrq). }
      intros r hp Hg. pose proof Hg as ([w Hr] & Hfr & Hsz).
      destruct (frame_arch U r0 r a ar0 Hfr Har) as (ar & Har' & (Em & Eb' & Ecm) & Flost & Fks).
      destruct (sizes_lookup hp0 hp a (pc_index c) cs rowss rows Hsz Ha Hj) as (rowss' & rows' & Ha' & Hj' & Elr).
      destruct (lookup_lt_is_Some_2 rows' i) as [x Hx]; [lia|].
      destruct (call_step U HU rq Hent g s n iss dd pend r hp w a (pc_index c) i cs rowss' rows' x ar Hr Ha' Hj' Hx Har' Hrq) as (r' & w' & E1 & Hr' & Hfr').
      assert (hrow hp q = Some x) as Hhq.
      { unfold hrow. cbn [q fst snd]. rewrite Ha'. cbn [snd]. by rewrite (at_lookup _ _ _ _ Hj'). }
      eexists x, r', _. split; [done|]. split; [|split; [split; [by exists w'; exact Hr'|split]|]].
      * rewrite Ea, Eb. rewrite Eb' in E1. unfold bind at 1. rewrite E1. done.
      * by eapply rg_frame_trans.
      * by apply sizes_alter.
      * intros q'. pose proof (hrow_alter hp a cs rowss' (pc_index c, i) x (upd U rq g x) Ha') as Hal. cbn [fst snd] in Hal.
        rewrite Hal by (by rewrite (at_lookup _ _ _ _ Hj')). done.
  - cbn in Hcur. subst L1. destruct todo as [|c todo]; [done|].
    apply Forall_cons in Htodo as [Hc Htodo]. left.
    pose proof Hc as (a & cs & rowss & rows & ar0 & Ea & Ha & Hrq & Hj & Har & Eb).
    pose proof (cplaces_good hp0 c a cs rowss rows Ea Ha Hj) as Ec.
    assert (length (cplaces hp0 c) = length rows) as El by (rewrite Ec, fmap_length, seq_length; done).
    injection Hm as <-.
    exists (PTask todo (Some (c, ptrs (bl := pc_blocks c) rq 0, ptrs (bl := pc_blocks c) rq (length (cplaces hp0 c))))). split.
    { split; [done|]. exists (cplaces hp0 c). split; [|reflexivity]. split; [done|]. exists 0. split; [lia|]. done. }
    intros r hp Hg. pose proof Hg as ([w Hr] & Hfr & Hsz).
    destruct (frame_arch U r0 r a ar0 Hfr Har) as (ar & Har' & (Em & Eb' & Ecm) & Flost & Fks).
    destruct (sizes_lookup hp0 hp a (pc_index c) cs rowss rows Hsz Ha Hj) as (rowss' & rows' & Ha' & Hj' & Elr).
    pose proof (enter_step U rq s n iss dd pend r hp w a (pc_index c) cs rowss' rows' ar Hr Ha' Hj' Har' Hrq) as E.
    rewrite Eb', <- Eb in E. rewrite Ea. unfold bind at 1. rewrite E. unfold ret. cbn [fst snd]. rewrite El, Elr. done.
Qed.

Lemma task_returned rq g t L : task_good U rq r0 hp0 t L → pe_step U rq g t = None → t = PTask [] None.
Proof. destruct t as [[|c todo] [[[c' ps] e]|]]; done. Qed.

(** The batches of par_each. *)
Lemma start_ok rq nw : 0 < nw → ∃ ts Ls, step_quiet (pe_start U rq nw) ts ∧ Forall2 (task_good U rq r0 hp0) ts Ls ∧ NoDup (concat Ls).
Proof.
  intros Hnw. destruct (chunks_ok0 rq) as (cs & Hcs & Hid & E). destruct (split_start nw cs Hnw) as [Hn Hc].
  set (ts := match pf_batches nw (length cs) with None => [PTask cs None] | Some bs => (λ b, PTask (subrange cs b) None) <$> bs end) in *.
  destruct (conf_start U rq (λ _ _, None) s n iss dd pend r0 hp0 w0 Hr0 ts cs Hn Hc Hcs) as (k & Ls & D & Hts & Hp & _).
  exists ts, Ls. split; [|split; [done|]].
  - intros r hp Hg. unfold pe_start. rewrite (bind_ok _ _ r r r) by done. by rewrite (bind_ok _ _ _ _ _ (E r hp Hg)).
  - pose proof (places_nodup hp0 cs Hid) as Hnd. rewrite <- Hp in Hnd. by apply NoDup_app in Hnd as (_ & _ & ?).
Qed.

Lemma concat_nodup_insert (Ls : list (list place)) (a : nat) q L' : Ls !! a = Some (q :: L') → NoDup (concat Ls) → NoDup (concat (<[a := L']> Ls)).
Proof.
  intros Ha. apply nodup_sublist. rewrite <- (take_drop_middle _ _ _ Ha) at 2. rewrite insert_take_drop by (by eapply lookup_lt_Some).
  rewrite !concat_app. cbn [concat app]. apply sublist_app; [done|]. by apply sublist_cons.
Qed.

Lemma th_spec vs a x m : Forall view_ok vs → thread_good vs x → th_step U a x = Some m →
  (∃ x', thread_good vs x' ∧ step_quiet m x') ∨
  (∃ q rq g h, rq ∈ vs ∧ (∀ v, thread_good vs (h v)) ∧ step_at m q rq g h).
Proof.
  intros Hvs Hx Hm. rewrite Forall_forall in Hvs.
  destruct x as [[|rq f k|rq k|nw rq f k|cm k] out|rq f k t log out|rq f k ts out]; cbn [th_step thread_good prog_ok] in *; [done|..].
  - injection Hm as <-. left. destruct Hx as [Hin Hk]. destruct (chunks_ok0 rq) as (cs & Hcs & _ & E).
    exists (TIn rq f k (PTask cs None) [] out). split.
    + split; [done|]. split; [done|]. eexists. split; [done|]. exists []. done.
    + intros r hp Hg. rewrite (bind_ok _ _ r r r) by done. by rewrite (bind_ok _ _ _ _ _ (E r hp Hg)).
  - injection Hm as <-. destruct Hx as [Hin Hk]. destruct (first_place rq (ht_iter (rg_table r0))) as [[q|] Hq].
    + right. exists q, rq, (λ _ _, None), (λ v, TAt (k (Some v)) out). split; [done|]. split; [intros v; apply Hk|].
      intros r hp Hg. pose proof Hg as (_ & _ & Hs). destruct (Hq hp Hs) as [E1 E2]. destruct (E2 q eq_refl) as [y Hy].
      exists y, r, hp. split; [done|]. split; [|split; [done|]].
      * rewrite (bind_ok _ _ _ _ _ (single_ok rq r hp (Hvs _ Hin) Hg)). rewrite E1. cbn [mbind option_bind]. by rewrite Hy.
      * intros q'. rewrite upd_none. case_decide; [by subst|done].
    + left. exists (TAt (k None) out). split; [apply Hk|]. intros r hp Hg. pose proof Hg as (_ & _ & Hs). destruct (Hq hp Hs) as [E1 _].
      rewrite (bind_ok _ _ _ _ _ (single_ok rq r hp (Hvs _ Hin) Hg)). rewrite E1. done.
  - injection Hm as <-. left. destruct Hx as (Hnw & Hin & Hk). destruct (start_ok rq nw Hnw) as (ts & Ls & E & Hts & Hnd).
    exists (TPar rq f k ts out). split; [|by apply (quiet_map _ _ (λ ts, TPar rq f k ts out))]. split; [done|]. split; [done|]. by exists Ls.
  - injection Hm as <-. left. by exists (TAt k (out ++ [cm])).
  - destruct Hx as (Hin & Hk & L & Ht). destruct (pe_step U rq (f log) t) as [m0|] eqn:E0.
    2:{ injection Hm as <-. left. exists (TAt (k log) out). split; [apply Hk|]. intros r hp _. done. }
    injection Hm as <-. set (F := λ x : ptask * vlog, TIn rq f k x.1 (log ++ x.2) out).
    destruct (task_spec rq (f log) t L m0 (Hvs _ Hin) Ht E0) as [(t' & Ht' & Hq)|(q & L' & t' & -> & Ht' & Hq)].
    + left. exists (F (t', [])). split; [|by apply quiet_map]. split; [done|]. split; [done|]. by exists L.
    + right. exists q, rq, (f log), (λ v, F (t', [v])). split; [done|]. split; [|by apply (at_map m0 q rq (f log) (λ v, (t', [v])) F)].
      intros v. split; [done|]. split; [done|]. by exists L'.
  - destruct Hx as (Hin & Hk & Ls & Hts & Hnd). destruct (ts !! a ≫= pe_step U rq f) as [m0|] eqn:E0.
    2:{ destruct (forallb _ ts); [|done]. injection Hm as <-. left. exists (TAt k out). split; [apply Hk|]. intros r hp _. done. }
    apply bind_Some in E0 as (t & Ha & E0). injection Hm as <-. set (F := λ x : ptask * vlog, TPar rq f k (<[a := x.1]> ts) out).
    destruct (Forall2_lookup_l _ _ _ _ _ Hts Ha) as (L & HL & Ht).
    destruct (task_spec rq f t L m0 (Hvs _ Hin) Ht E0) as [(t' & Ht' & Hq)|(q & L' & t' & -> & Ht' & Hq)].
    + left. exists (F (t', [])). split; [|by apply quiet_map]. split; [done|]. split; [done|]. exists Ls. split; [|done].
      rewrite <- (list_insert_id Ls a L HL). by apply Forall2_insert.
    + right. exists q, rq, f, (λ v, F (t', [v])). split; [done|]. split; [|by apply (at_map m0 q rq f (λ v, (t', [v])) F)].
      intros v. split; [done|]. split; [done|]. exists (<[a := L']> Ls). split; [by apply Forall2_insert|by eapply concat_nodup_insert].
Qed.

(** Steps at different places, or through views that write nothing that the other has, commute. *)
Definition step_like {X} (m : M registry X) : Prop := (∃ x, step_quiet m x) ∨ ∃ q rq g h, step_at m q rq g h.
Lemma step_like_ok {X} (m : M registry X) r hp : step_like m → rgood r hp → ∃ r' x hp', m r = (r', Ok x) ∧ rgood r' hp'.
Proof.
  intros [[x H]|(q & rq & g & h & H)] Hg.
  - exists r, x, hp. split; [by eapply H|done].
  - destruct (H r hp Hg) as (y & r' & hp' & _ & E & Hg' & _). by exists r', (h (row_vals U rq y)), hp'.
Qed.

Lemma at_comm {X Y} (mi : M registry X) (mj : M registry Y) qi rqi gi hi qj rqj gj hj r hp ri rj xi xj :
  step_at mi qi rqi gi hi → step_at mj qj rqj gj hj → (qi = qj → sep rqi rqj ∧ sep rqj rqi) → rgood r hp →
  mi r = (ri, Ok xi) → mj r = (rj, Ok xj) → ∃ r12, mj ri = (r12, Ok xj) ∧ mi rj = (r12, Ok xi).
Proof.
  intros Qi Qj Hsep Hg Ei Ej.
    destruct (Qi r hp Hg) as (a & r1 & hp1 & Ha & E1 & Hg1 & Hq1). rewrite Ei in E1. injection E1 as <- ->.
    destruct (Qj r hp Hg) as (b & r2 & hp2 & Hb & E2 & Hg2 & Hq2). rewrite Ej in E2. injection E2 as <- ->.
    destruct (Qi rj hp2 Hg2) as (a' & r21 & hp21 & Ha' & E21 & Hg21 & Hq21).
    destruct (Qj ri hp1 Hg1) as (b' & r12 & hp12 & Hb' & E12 & Hg12 & Hq12).
    assert (row_vals U rqi a' = row_vals U rqi a) as Eva.
    { rewrite Hq2 in Ha'. case_decide as Hd; [|congruence]. injection Ha' as <-. subst. rewrite Ha in Hb. injection Hb as <-. by apply vals_sep, Hsep. }
    assert (row_vals U rqj b' = row_vals U rqj b) as Evb.
    { rewrite Hq1 in Hb'. case_decide as Hd; [|congruence]. injection Hb' as <-. subst. rewrite Ha in Hb. injection Hb as <-. by apply vals_sep, Hsep. }
    assert (hp12 = hp21) as <-.
    { pose proof Hg12 as (_ & _ & S1). pose proof Hg21 as (_ & _ & S2). apply (same_rows hp0); [done|done|]. intros q.
      rewrite Hq12, Hq21, Hq1, Hq2, Eva, Evb. rewrite Hq2 in Ha'. rewrite Hq1 in Hb'.
      destruct (decide (q = qj)) as [Ej'|Nj]; destruct (decide (q = qi)) as [Ei'|Ni]; [| | |done].
      - assert (qi = qj) as Eq by congruence. rewrite decide_True in Ha' by done. rewrite decide_True in Hb' by done.
        injection Ha' as <-. injection Hb' as <-. rewrite Eq, Hb in Ha. injection Ha as <-. f_equal. symmetry. by apply upd_comm, Hsep.
      - rewrite decide_False in Hb' by congruence. congruence.
      - rewrite decide_False in Ha' by congruence. congruence. }
    pose proof (rgood_eq _ _ _ Hg12 Hg21) as <-. exists r12. rewrite Eva in E21. rewrite Evb in E12. done.
Qed.

Lemma quiet_comm {X Y} (mi : M registry X) (mj : M registry Y) x r hp ri rj xi xj : step_quiet mi x → step_like mj → rgood r hp →
  mi r = (ri, Ok xi) → mj r = (rj, Ok xj) → ∃ r12, mj ri = (r12, Ok xj) ∧ mi rj = (r12, Ok xi).
Proof.
  intros Qi Hj Hg Ei Ej. pose proof (Qi r hp Hg) as E. rewrite Ei in E. injection E as -> ->.
  destruct (step_like_ok mj r hp Hj Hg) as (r' & y' & hp' & E & Hg'). rewrite Ej in E. injection E as <- <-.
  exists rj. split; [done|]. by eapply Qi.
Qed.
(** * Steps of different systems commute *)

Definition bgood (vss : list (list (list vreq))) (c : bconf) : Prop :=
  Forall2 thread_good vss (bc_tasks c) ∧ ∃ hp, rgood (bc_reg c) hp.

Definition separate_views (vss : list (list (list vreq))) : Prop :=
  ∀ (i j : nat) vs1 vs2 rq1 rq2, i ≠ j → vss !! i = Some vs1 → vss !! j = Some vs2 → rq1 ∈ vs1 → rq2 ∈ vs2 → sep rq1 rq2.

Section batch.
Context (vss : list (list (list vreq))) (Hvss : Forall (Forall view_ok) vss) (Hsep : separate_views vss).

Lemma th_next vs a x m r hp : vs ∈ vss → thread_good vs x → th_step U a x = Some m → rgood r hp →
  ∃ r' x' hp', m r = (r', Ok x') ∧ thread_good vs x' ∧ rgood r' hp'.
Proof.
  intros Hin Hx Hm Hg. pose proof Hvss as Hv. rewrite Forall_forall in Hv. destruct (th_spec vs a x m (Hv _ Hin) Hx Hm) as [(x' & Hx' & Hq)|(q & rq & g & h & _ & Hh & Hq)].
  - exists r, x', hp. split; [by eapply Hq|]. done.
  - destruct (Hq r hp Hg) as (y & r' & hp' & _ & E & Hg' & _). exists r', (h (row_vals U rq y)), hp'. done.
Qed.

Lemma bgood_step c c' : bgood vss c → b_run U c c' → bgood vss c'.
Proof.
  intros [Hts [hp Hg]] Hs. destruct Hs as [c i a x m r' x' Hi Hm E]. cbn [bc_tasks bc_reg] in *.
  destruct (Forall2_lookup_r _ _ _ _ _ Hts Hi) as (vs & Hv & Hx).
  destruct (th_next vs a x m (bc_reg c) hp) as (r2 & x2 & hp' & E2 & Hx' & Hg'); [by eapply elem_of_list_lookup_2|done|done|done|].
  rewrite E in E2. injection E2 as <- <-. split; [|by exists hp']. cbn [bc_tasks].
  rewrite <- (list_insert_id vss i vs) by done. by apply Forall2_insert.
Qed.

(** Two tasks of one par_each. *)
Lemma par_comm vs rq f k ts out (a b : nat) m1 m2 r hp r1 r2 x1 x2 : Forall view_ok vs → thread_good vs (TPar rq f k ts out) → a ≠ b →
  th_step U a (TPar rq f k ts out) = Some m1 → th_step U b (TPar rq f k ts out) = Some m2 → rgood r hp →
  m1 r = (r1, Ok x1) → m2 r = (r2, Ok x2) →
  (r1, x1) = (r2, x2) ∨ ∃ m1' m2' r12 x12, th_step U b x1 = Some m2' ∧ th_step U a x2 = Some m1' ∧ m2' r1 = (r12, Ok x12) ∧ m1' r2 = (r12, Ok x12).
Proof.
  intros Hvs (Hin & Hk & Ls & Hts & Hnd) Hab H1 H2 Hg E1 E2. rewrite Forall_forall in Hvs. cbn [th_step] in H1, H2.
  assert (∀ (i : nat) t m, ts !! i = Some t → pe_step U rq f t = Some m →
    forallb (λ t, match t with PTask [] None => true | _ => false end) ts = false) as Hbusy.
  { intros i t m Hi Hm. apply not_true_is_false. intros Hall. rewrite forallb_forall in Hall.
    apply elem_of_list_lookup_2, elem_of_list_In, Hall in Hi. by destruct t as [[] []]. }
  destruct (ts !! a ≫= pe_step U rq f) as [ma|] eqn:Ea.
  - apply bind_Some in Ea as (ta & Ha & Ea). rewrite (Hbusy a ta ma Ha Ea) in H2.
    destruct (ts !! b ≫= pe_step U rq f) as [mb|] eqn:Eb; [|done]. apply bind_Some in Eb as (tb & Hb & Eb).
    injection H1 as <-. injection H2 as <-. right.
    destruct (Forall2_lookup_l _ _ _ _ _ Hts Ha) as (La & HLa & Hta). destruct (Forall2_lookup_l _ _ _ _ _ Hts Hb) as (Lb & HLb & Htb).
    unfold bind at 1 in E1. destruct (ma r) as [ra [[ta' la]|?|]] eqn:Ema; [|done|done]. injection E1 as <- <-.
    unfold bind at 1 in E2. destruct (mb r) as [rb [[tb' lb]|?|]] eqn:Emb; [|done|done]. injection E2 as <- <-. cbn [fst].
    assert (∃ r12, mb ra = (r12, Ok (tb', lb)) ∧ ma rb = (r12, Ok (ta', la))) as (r12 & E12 & E21).
    { destruct (task_spec rq f ta La ma (Hvs _ Hin) Hta Ea) as [(t1 & _ & Q1)|(q1 & L1 & t1 & -> & _ & Q1)];
        destruct (task_spec rq f tb Lb mb (Hvs _ Hin) Htb Eb) as [(t2 & _ & Q2)|(q2 & L2 & t2 & -> & _ & Q2)].
      - eapply (quiet_comm ma mb); [exact Q1|left; by eexists|exact Hg|exact Ema|exact Emb].
      - eapply (quiet_comm ma mb); [exact Q1|right; by do 4 eexists|exact Hg|exact Ema|exact Emb].
      - destruct (quiet_comm mb ma _ r hp rb ra _ _ Q2 ltac:(right; by do 4 eexists) Hg Emb Ema) as (r12 & ? & ?). by exists r12.
      - eapply (at_comm ma mb); [exact Q1|exact Q2| |exact Hg|exact Ema|exact Emb]. intros <-. exfalso.
        eapply (NoDup_concat_disjoint Ls a b); [exact Hnd|exact Hab|exact HLa|exact HLb|left|left]. }
    exists (let! x := ma in ret (TPar rq f k (<[a := x.1]> (<[b := tb']> ts)) out)), (let! x := mb in ret (TPar rq f k (<[b := x.1]> (<[a := ta']> ts)) out)), r12,
      (TPar rq f k (<[b := tb']> (<[a := ta']> ts)) out).
    cbn [th_step]. rewrite !list_lookup_insert_ne by done. rewrite Ha, Hb. cbn [mbind option_bind]. rewrite Ea, Eb.
    split; [done|]. split; [done|]. unfold bind at 1 2. rewrite E12, E21. unfold ret. cbn [fst]. split; [done|].
    by rewrite list_insert_commute.
  - destruct (forallb _ ts) eqn:Hall; [|done]. injection H1 as <-. injection E1 as <- <-.
    destruct (ts !! b ≫= pe_step U rq f) as [mb|] eqn:Eb.
    { apply bind_Some in Eb as (tb & Hb & Eb). pose proof (Hbusy b tb mb Hb Eb). congruence. }
    injection H2 as <-. injection E2 as <- <-. by left.
Qed.

Lemma th_like vs a x m : vs ∈ vss → thread_good vs x → th_step U a x = Some m → step_like m.
Proof.
  intros Hin Hx Hm. pose proof Hvss as Hv. rewrite Forall_forall in Hv.
  destruct (th_spec vs a x m (Hv _ Hin) Hx Hm) as [(x' & _ & Q)|(q & rq & g & h & _ & _ & Q)]; [left; by eexists|right; by do 4 eexists].
Qed.

Lemma b_diamond c c1 c2 : bgood vss c → b_run U c c1 → b_run U c c2 → c1 = c2 ∨ ∃ d, b_run U c1 d ∧ b_run U c2 d.
Proof.
  intros [Hts [hp Hg]] H1 H2. destruct H1 as [c i a x mi ri xi Hi Hmi Ei]. inversion H2 as [c' j b y mj rj xj Hj Hmj Ej]; subst c' c2. clear H2.
  destruct c as [ts r]. cbn [bc_tasks bc_reg] in *. pose proof Hvss as Hv. rewrite Forall_forall in Hv.
  destruct (Forall2_lookup_r _ _ _ _ _ Hts Hi) as (vi & Hvi & Hx). pose proof (elem_of_list_lookup_2 _ _ _ Hvi) as Hvi'.
  destruct (decide (i = j)) as [<-|Hij].
  { rewrite Hi in Hj. injection Hj as <-. pose proof (lookup_lt_Some _ _ _ Hi) as Hlt.
    assert (th_step U a x = th_step U b x → BConf (<[i := xi]> ts) ri = BConf (<[i := xj]> ts) rj) as Hsame.
    { intros E. rewrite Hmi, Hmj in E. injection E as <-. rewrite Ei in Ej. by injection Ej as <- <-. }
    destruct (decide (a = b)) as [<-|Hab]; [left; by apply Hsame|].
    destruct x as [p out|rq f k t log out|rq f k us out]; [left; by apply Hsame|left; by apply Hsame|].
    destruct (par_comm vi rq f k us out a b mi mj r hp ri rj xi xj (Hv _ Hvi') Hx Hab Hmi Hmj Hg Ei Ej) as [[= -> ->]|(m1 & m2 & r12 & x12 & S2 & S1 & E2 & E1)]; [by left|].
    right. exists (BConf (<[i := x12]> ts) r12). split.
    - rewrite <- (list_insert_insert ts i x12 xi). eapply (BRun U (BConf (<[i := xi]> ts) ri) i b xi m2 r12 x12); cbn [bc_tasks bc_reg]; [by apply list_lookup_insert|done|done].
    - rewrite <- (list_insert_insert ts i x12 xj). eapply (BRun U (BConf (<[i := xj]> ts) rj) i a xj m1 r12 x12); cbn [bc_tasks bc_reg]; [by apply list_lookup_insert|done|done]. }
  right. destruct (Forall2_lookup_r _ _ _ _ _ Hts Hj) as (vj & Hvj & Hy). pose proof (elem_of_list_lookup_2 _ _ _ Hvj) as Hvj'.
  assert (∃ r12, mj ri = (r12, Ok xj) ∧ mi rj = (r12, Ok xi)) as (r12 & E12 & E21).
  { destruct (th_spec vi a x mi (Hv _ Hvi') Hx Hmi) as [(x' & _ & Qi)|(qi & rqi & gi & hi & Ri & _ & Qi)].
    { by eapply (quiet_comm mi mj); [exact Qi|eapply th_like|..]. }
    destruct (th_spec vj b y mj (Hv _ Hvj') Hy Hmj) as [(x' & _ & Qj)|(qj & rqj & gj & hj & Rj & _ & Qj)].
    { destruct (quiet_comm mj mi _ r hp rj ri _ _ Qj (th_like vi a x mi Hvi' Hx Hmi) Hg Ej Ei) as (r12 & ? & ?). by exists r12. }
    eapply (at_comm mi mj); [exact Qi|exact Qj| |exact Hg|exact Ei|exact Ej]. intros _.
    split; [by apply (Hsep i j vi vj)|apply (Hsep j i vj vi); auto]. }
  exists (BConf (<[j := xj]> (<[i := xi]> ts)) r12). split.
  - apply (BRun U (BConf (<[i := xi]> ts) ri) j b y mj r12 xj); cbn [bc_tasks bc_reg]; [by rewrite list_lookup_insert_ne|done|done].
  - rewrite list_insert_commute by done.
    apply (BRun U (BConf (<[j := xj]> ts) rj) i a x mi r12 xi); cbn [bc_tasks bc_reg]; [by rewrite list_lookup_insert_ne|done|done].
Qed.
End batch.

(** * A system alone *)

Inductive alone : sthread * registry → sthread * registry → Prop :=
  | Alone a x r m r' x' : th_step U a x = Some m → m r = (r', Ok x') → alone (x, r) (x', r').

Lemma alone_in ts (i : nat) a b : i < length ts → rtc alone a b →
  rtc (b_run U) (BConf (<[i := a.1]> ts) a.2) (BConf (<[i := b.1]> ts) b.2).
Proof.
  intros Hi. induction 1 as [a|a b c Hs _ IH]; [done|]. eapply rtc_l; [|exact IH]. destruct Hs as [a0 x r m r' x' Hm E]. cbn [fst snd].
  rewrite <- (list_insert_insert ts i x' x).
  apply (BRun U (BConf (<[i := x]> ts) r) i a0 x m r' x'); cbn [bc_tasks bc_reg]; [by apply list_lookup_insert|done|done].
Qed.

Lemma alone_good vs a b : Forall view_ok vs → rtc alone a b → thread_good vs a.1 → (∃ hp, rgood a.2 hp) →
  thread_good vs b.1 ∧ ∃ hp, rgood b.2 hp.
Proof.
  intros Hvs. induction 1 as [a|a b c Hs _ IH]; [done|]. intros Ha [hp Hg]. destruct Hs as [a0 x r m r' x' Hm E]. cbn [fst snd] in *.
  destruct (th_spec vs a0 x m Hvs Ha Hm) as [(x2 & Hx' & Hq)|(q & rq & g & h & _ & Hh & Hq)].
  - specialize (Hq r hp Hg). rewrite E in Hq. injection Hq as -> ->. apply IH; [done|by exists hp].
  - destruct (Hq r hp Hg) as (y & r2 & hp' & _ & E2 & Hg' & _). rewrite E in E2. injection E2 as -> ->. apply IH; [done|by exists hp'].
Qed.

Lemma call_log rq f ps log k : vw_call rq f log ps k =
  match vw_call rq (λ _, f log) [] ps k with (k', Ok l) => (k', Ok (log ++ l)) | (k', Throw e) => (k', Throw e) | (k', UB) => (k', UB) end.
Proof.
  unfold vw_call, bind. destruct (it_deref ps k) as [k1 [xs|?|]]; [|done|done].
  match goal with |- context [forM ?a ?b k1] => destruct (forM a b k1) as [k2 [[]|?|]] end; done.
Qed.

Section sim.
Context (rq : list vreq) (f : callback) (kk : vlog → sprog) (out : list scmd).

Lemma sim_rows c todo (a : nat) e : pc_arch c = Some a → ∀ fuel ps log k k' log' r ar,
  vw_rows U fuel rq f ps e log k = (k', Ok log') → rg_heap r !! a = Some ar → ar_chunks ar !! pc_index c = Some k →
  rtc alone (TIn rq f kk (PTask todo (Some (c, ps, e))) log out, r)
    (TIn rq f kk (PTask todo None) log' out, rg_set_heap r (<[a := ar_with_chunks ar (<[pc_index c := k']> (ar_chunks ar))]> (rg_heap r))).
Proof.
  intros Ea. induction fuel as [|fuel IH]; intros ps log k k' log' r ar E Ha Hk; [done|]. cbn [vw_rows] in E.
  destruct (it_eqb ps e) eqn:Eq.
  - injection E as <- <-. rewrite put_id by done. apply rtc_once. eapply (Alone 0).
    + cbn [th_step pe_step pt_cur]. rewrite Eq. reflexivity.
    + unfold bind, ret. cbn [fst snd pt_todo]. by rewrite app_nil_r.
  - unfold bind at 1 in E. rewrite call_log in E.
    destruct (vw_call rq (λ _, f log) [] ps k) as [k1 [l|?|]] eqn:E1; [|done|done].
    set (r1 := rg_set_heap r (<[a := ar_with_chunks ar (<[pc_index c := k1]> (ar_chunks ar))]> (rg_heap r))).
    eapply (rtc_l _ _ (TIn rq f kk (PTask todo (Some (c, it_incr U rq ps, e))) (log ++ l) out, r1)).
    + eapply (Alone 0).
      { cbn [th_step pe_step pt_cur]. rewrite Eq. reflexivity. }
      rewrite Ea. unfold bind at 1 2. rewrite (on_arch_run _ _ _ _ _ _ Ha (on_chunk_run _ _ _ _ _ _ Hk E1)). reflexivity.
    + pose proof (lookup_lt_Some _ _ _ Ha). pose proof (lookup_lt_Some _ _ _ Hk).
      assert (rg_heap r1 !! a = Some (ar_with_chunks ar (<[pc_index c := k1]> (ar_chunks ar)))) as Ha1 by (by apply list_lookup_insert).
      assert (ar_chunks (ar_with_chunks ar (<[pc_index c := k1]> (ar_chunks ar))) !! pc_index c = Some k1) as Hk1 by (by apply list_lookup_insert).
      specialize (IH (it_incr U rq ps) (log ++ l) k1 k' log' r1 _ E Ha1 Hk1).
      revert IH. unfold r1, rg_set_heap, ar_with_chunks.
      cbn [rg_heap rg_pool rg_table rg_search rg_locs ar_chunks ar_max ar_blocks ar_comps ar_lost]. by rewrite !list_insert_insert.
Qed.

Lemma it_new_state bl l i k : (it_new bl l i k).1 = k.
Proof.
  assert (∀ c i (k k' : chunk) x, fetch_pointer bl c i k = (k', x) → k' = k) as fetch_state.
  { clear. intros c i k k' x. unfold fetch_pointer. destruct (sm_at bl c) as [[b|]|]; by intros [= <- _]. }
  revert i k. induction l as [|q l IH']; intros i k; [done|]. cbn [it_new].
  unfold bind. destruct (fetch_pointer bl (vr_cid q) i k) as [k1 [x|?|]] eqn:E; cbn [fst].
  - assert (k1 = k) as -> by (by eapply fetch_state). specialize (IH' i k). destruct (it_new bl l i k) as [k2 [?|?|]]; done.
  - by eapply fetch_state.
  - by eapply fetch_state.
Qed.

Lemma sim_chunks p bl todo : ∀ js log log' r r', vw_chunks U p bl rq f js log r = (r', Ok log') →
  rtc alone (TIn rq f kk (PTask ((PChunk p bl <$> js) ++ todo) None) log out, r) (TIn rq f kk (PTask todo None) log' out, r').
Proof.
  induction js as [|j js IH]; intros log log' r r' E; [by injection E as <- <-|]. cbn [vw_chunks] in E. unfold bind at 1 in E.
  destruct (on_arch p _ r) as [r1 [l|?|]] eqn:E1; [|done|done]. apply IH in E. etransitivity; [|exact E].
  apply on_inv in E1 as (a & ar & k & k' & -> & Ha & Hk & E1 & ->).
  unfold vw_chunk in E1. rewrite (bind_ok _ _ k k k) in E1 by done.
  pose proof (it_new_state bl rq 0 k) as Hb. pose proof (it_new_state bl rq (ck_size k) k) as He.
  destruct (it_new bl rq 0 k) as [k1 [b|?|]] eqn:Eb; cbn in Hb; subst k1; unfold bind at 1 in E1; rewrite Eb in E1; [|done|done].
  destruct (it_new bl rq (ck_size k) k) as [k1 [e|?|]] eqn:Ee; cbn in He; subst k1; unfold bind at 1 in E1; rewrite Ee in E1; [|done|done].
  set (c := PChunk (Some a) bl j). eapply (rtc_l _ _ (TIn rq f kk (PTask ((PChunk (Some a) bl <$> js) ++ todo) (Some (c, b, e))) log out, r)).
  - eapply (Alone 0); [reflexivity|]. cbn [pc_arch pc_index pc_blocks].
    assert ((let! k := get in let! b := it_new bl rq 0 in let! e := it_new bl rq (ck_size k) in ret (b, e)) k = (k, Ok (b, e))) as Ebe.
    { rewrite (bind_ok _ _ k k k) by done. by rewrite (bind_ok _ _ _ _ _ Eb), (bind_ok _ _ _ _ _ Ee). }
    pose proof (on_arch_run _ _ _ _ _ _ Ha (on_chunk_run _ _ _ _ _ _ Hk Ebe)) as Eon. rewrite put_id in Eon by done.
    unfold bind at 1 2. rewrite Eon. unfold ret. cbn [fst snd]. by rewrite app_nil_r.
  - by apply (sim_rows c _ a e eq_refl (S (ck_size k)) b log k k' l r ar).
Qed.

Lemma sim_archs vs : Forall view_ok vs → ∀ l cs todo log log' r r',
  pe_chunks U rq l r0 = (r0, Ok cs) → thread_good vs (TIn rq f kk (PTask (cs ++ todo) None) log out) → (∃ hp, rgood r hp) →
  vw_archs U rq f l log r = (r', Ok log') →
  rtc alone (TIn rq f kk (PTask (cs ++ todo) None) log out, r) (TIn rq f kk (PTask todo None) log' out, r').
Proof.
  intros Hvs l. induction l as [|e l IH]; intros cs todo log log' r r' Ecs Ht Hg E; [injection Ecs as <-; by injection E as <- <-|].
  cbn [pe_chunks vw_archs] in Ecs, E. destruct e.2 as [a|] eqn:Ea; [|done].
  destruct (rg_heap r0 !! a) as [ar0|] eqn:Ha; [|unfold rg_arch, on_arch, bind at 1 in Ecs; by rewrite Ha in Ecs].
  rewrite (bind_ok _ _ _ _ _ (rg_arch_run _ _ _ Ha)) in Ecs. unfold bind at 1 in Ecs.
  destruct (pe_chunks U rq l r0) as [r1 [cs1|?|]] eqn:E1; [|done|done]. injection Ecs as -> <-.
  pose proof Hg as (hp & _ & Hfr & _).
  destruct (frame_arch U r0 r a ar0 Hfr Ha) as (ar & Ha' & (Em & Eb & Ec) & _ & Fks).
  rewrite (bind_ok _ _ _ _ _ (rg_arch_run _ _ _ Ha')) in E.
  assert (vw_match U ar = vw_match U ar0) as Emt by (unfold vw_match, ar_contains; by rewrite Ec).
  rewrite Emt, Eb, <- (Forall2_length _ _ _ Fks) in E. unfold bind at 1 in E.
  destruct (forallb (vw_match U ar0) (vr_cid <$> rq)).
  - destruct (vw_chunks U (Some a) (ar_blocks ar0) rq f _ log r) as [r1 [log1|?|]] eqn:E2; [|done|done].
    rewrite <- app_assoc in Ht |- *. pose proof (sim_chunks _ _ (cs1 ++ todo) _ _ _ _ _ E2) as Hrun.
    destruct (alone_good vs _ _ Hvs Hrun Ht Hg) as [Ht1 Hg1]. etransitivity; [exact Hrun|]. by eapply IH.
  - cbn in E. cbn [app] in Ht |- *. by eapply IH.
Qed.
End sim.

Lemma par_alone rq f k out c c' : rtc (pe_run U rq f) c c' → rtc alone (TPar rq f k (pf_tasks c) out, pf_reg c) (TPar rq f k (pf_tasks c') out, pf_reg c').
Proof.
  induction 1 as [c|c c1 c' Hs _ IH]; [done|]. eapply rtc_l; [|exact IH]. destruct Hs as [c i t m r' t' l Hi Hm E]. cbn [pf_tasks pf_reg].
  eapply (Alone i).
  - cbn [th_step]. rewrite Hi. cbn [mbind option_bind]. rewrite Hm. reflexivity.
  - by rewrite (bind_ok _ _ _ _ _ E).
Qed.

(** A body alone ends, as the execution of its task. *)
Lemma prog_alone vs p : Forall view_ok vs → prog_ok vs p → ∀ out r hp, rgood r hp →
  ∃ out' r', run_prog U p out r = (r', Ok out') ∧ rtc alone (TAt p out, r) (TAt PRet out', r') ∧ ∃ hp', rgood r' hp'.
Proof.
  intros Hvs. induction p as [|rq f k IH|rq k IH|nw rq f k IH|cm k IH]; intros Hp out r hp Hg.
  - exists out, r. split; [done|]. split; [done|by exists hp].
  - destruct Hp as [Hin Hk]. pose proof Hvs as Hv. rewrite Forall_forall in Hv. destruct (Hv _ Hin) as [Hne Hent].
    destruct Hg as ([w Hr] & Hg2). assert (rgood r hp) as Hg by (split; [by exists w|done]).
    destruct (each_spec U HU s n r iss dd pend hp w rq f Hr Hent Hne) as [(r1 & hp1 & es & E & _)|[Hn _]].
    2:{ exfalso. apply Hn. by eapply rgood_nonull. }
    set (log := row_vals U rq <$> es) in *.
    assert (rtc alone (TAt (PEach rq f k) out, r) (TAt (k log) out, r1)) as Hrun.
    { destruct iter_entries as [Hnd Hall].
      destruct (chunks_good U HU rq s n iss dd pend r0 hp0 w0 Hr0 _ Hnd Hall) as (cs & Ecs & Hcs & _).
      eapply (rtc_l _ _ (TIn rq f k (PTask cs None) [] out, r)).
      { eapply (Alone 0); [reflexivity|]. rewrite (bind_ok _ _ r r r) by done. rewrite (rgood_table _ _ Hg).
        rewrite (bind_ok _ _ _ _ _ (chunks_frame rq r ltac:(apply Hg) _ _ Ecs)). done. }
      unfold rg_each in E. rewrite (bind_ok _ _ r r r) in E by done. rewrite (rgood_table _ _ Hg) in E.
      eapply rtc_r.
      - pose proof (sim_archs rq f k out vs Hvs _ cs [] [] log r r1 Ecs) as Hsim. rewrite app_nil_r in Hsim.
        apply Hsim; [|by exists hp|done]. split; [done|]. split; [done|]. eexists. split; [done|]. by exists [].
      - eapply (Alone 0); [reflexivity|]. done. }
    destruct (alone_good vs _ _ Hvs Hrun) as [_ [hp2 Hg2']]; [split; done|by exists hp|]. cbn [snd] in Hg2'.
    destruct (IH log (Hk log) out r1 hp2 Hg2') as (out' & r' & E2 & Hrun2 & Hg').
    exists out', r'. split; [|split; [by etransitivity|done]]. cbn [run_prog]. by rewrite (bind_ok _ _ _ _ _ E).
  - destruct Hp as [Hin Hk]. pose proof Hvs as Hv. rewrite Forall_forall in Hv.
    pose proof (single_ok rq r hp (Hv _ Hin) Hg) as E. set (x := row_vals U rq <$> _) in E.
    destruct (IH x (Hk x) out r hp Hg) as (out' & r' & E2 & Hrun2 & Hg'). exists out', r'. split; [|split; [|done]].
    + cbn [run_prog]. by rewrite (bind_ok _ _ _ _ _ E).
    + eapply rtc_l; [|exact Hrun2]. eapply (Alone 0); [reflexivity|]. by rewrite (bind_ok _ _ _ _ _ E).
  - destruct Hp as (Hnw & Hin & Hk). pose proof Hvs as Hv. rewrite Forall_forall in Hv. destruct (Hv _ Hin) as [Hne Hent].
    destruct Hg as ([w Hr] & Hg2). assert (rgood r hp) as Hg by (split; [by exists w|done]).
    destruct (each_spec U HU s n r iss dd pend hp w rq (λ _, f) Hr Hent Hne) as [(r1 & hp1 & es & E & _)|[Hn _]].
    2:{ exfalso. apply Hn. by eapply rgood_nonull. }
    assert (rtc alone (TAt (PPar nw rq f k) out, r) (TAt k out, r1)) as Hrun.
    { destruct (par_each_spec U HU rq f s n iss dd pend r hp w nw r1 _ Hent Hne Hr Hnw E) as (ts & bound & Est & Hbd & Hall).
      destruct (run_complete (pe_run U rq f) pe_done bound (PConf ts r []) Hbd) as (c & Hc & Hd).
      { intros c Hc. destruct (Hall c Hc) as (Hok & _). destruct (decide (Exists (λ t, is_Some (pe_step U rq f t)) (pf_tasks c))) as [Hex|Hno].
        - right. apply Exists_exists in Hex as (t & Ht & [m Em]). apply elem_of_list_lookup in Ht as [i Hi].
          destruct (Hok i t m Hi Em) as (r'' & [x' l] & Er). eexists. by eapply PeRun.
        - left. apply Forall_forall. intros t Ht. destruct (pe_step U rq f t) as [m|] eqn:Em; [exfalso; apply Hno, Exists_exists; eauto|].
          by destruct t as [[] [[[]]|]]. }
      destruct (Hall c Hc) as (_ & Hfin & _). destruct (Hfin Hd) as [<- _].
      eapply rtc_l; [eapply (Alone 0); [reflexivity|by rewrite (bind_ok _ _ _ _ _ Est)]|].
      eapply rtc_r; [exact (par_alone rq f k out _ _ Hc)|]. apply (Alone (length (pf_tasks c)) (TPar rq f k (pf_tasks c) out) (pf_reg c) (ret (TAt k out))); [|done].
      cbn [th_step]. rewrite lookup_ge_None_2 by done. cbn [mbind option_bind].
      assert (forallb (λ t, match t with PTask [] None => true | _ => false end) (pf_tasks c) = true) as ->; [|done].
      apply forallb_forall. intros t Ht. unfold pe_done in Hd. rewrite Forall_forall in Hd. rewrite (Hd t); [done|]. by apply elem_of_list_In. }
    destruct (alone_good vs _ _ Hvs Hrun) as [_ [hp2 Hg2']]; [split; done|by exists hp|]. cbn [snd] in Hg2'.
    destruct (IH Hk out r1 hp2 Hg2') as (out' & r' & E2 & Hrun2 & Hg').
    exists out', r'. split; [|split; [by etransitivity|done]]. cbn [run_prog]. by rewrite (bind_ok _ _ _ _ _ E).
  - destruct (IH Hp (out ++ [cm]) r hp Hg) as (out' & r' & E2 & Hrun2 & Hg'). exists out', r'. split; [done|]. split; [|done].
    eapply rtc_l; [|exact Hrun2]. by eapply (Alone 0).
Qed.

(** Running the bodies in order is one interleaving. *)
Lemma progs_in_order : ∀ vss ps done_ r hp, Forall (Forall view_ok) vss → Forall2 prog_ok vss ps → rgood r hp →
  ∃ outs r', run_progs U ps r = (r', Ok outs) ∧
    rtc (b_run U) (BConf (done_ ++ ((λ p, TAt p []) <$> ps)) r) (BConf (done_ ++ (TAt PRet <$> outs)) r') ∧ ∃ hp', rgood r' hp'.
Proof.
  intros vss ps done_ r hp Hvss Hps. revert done_ r hp. induction Hps as [|vs p vss ps Hp _ IH]; intros done_ r hp Hg.
  { exists [], r. split; [done|]. split; [done|]. by exists hp. }
  apply Forall_cons in Hvss as [Hvs Hvss]. destruct (prog_alone vs p Hvs Hp [] r hp Hg) as (out & r1 & E1 & Hrun1 & hp1 & Hg1).
  destruct (IH Hvss (done_ ++ [TAt PRet out]) r1 hp1 Hg1) as (outs & r' & E & Hrun & Hg'). exists (out :: outs), r'. split; [|split; [|done]].
  - cbn [run_progs]. by rewrite (bind_ok _ _ _ _ _ E1), (bind_ok _ _ _ _ _ E).
  - rewrite <- !app_assoc in Hrun. cbn [app] in Hrun. etransitivity; [|exact Hrun]. rewrite fmap_cons.
    pose proof (alone_in (done_ ++ TAt p [] :: ((λ p, TAt p []) <$> ps)) (length done_) _ _ ltac:(rewrite app_length; cbn; lia) Hrun1) as H.
    cbn [fst snd] in H. rewrite !insert_app_r_alt, !Nat.sub_diag in H by lia. exact H.
Qed.

(** All executions of a batch. *)
Lemma batch_spec vss ps : Forall (Forall view_ok) vss → separate_views vss → Forall2 prog_ok vss ps →
  ∃ outs r' bound, run_progs U ps r0 = (r', Ok outs) ∧ (∃ hp', rgood r' hp') ∧
    (∀ k c, nsteps (b_run U) k (b_start ps r0) c → k ≤ bound) ∧
    ∀ c, rtc (b_run U) (b_start ps r0) c → bgood vss c ∧
      (∀ (i a : nat) x m, bc_tasks c !! i = Some x → th_step U a x = Some m → ∃ r'' x', m (bc_reg c) = (r'', Ok x')) ∧
      (b_done c → c = BConf (TAt PRet <$> outs) r').
Proof.
  intros Hvss Hsep Hps. destruct (progs_in_order vss ps [] r0 hp0 Hvss Hps rgood_start) as (outs & r' & E & Hrun & Hg'). cbn [app] in Hrun.
  apply rtc_nsteps in Hrun as [bound Hrun]. exists outs, r', bound. split; [done|]. split; [done|].
  set (fin := BConf (TAt PRet <$> outs) r') in *.
  assert (bgood vss (b_start ps r0)) as Hb0.
  { split; [|exists hp0; exact rgood_start]. cbn. apply Forall2_fmap_r. done. }
  assert (b_done fin) as HF by (apply Forall_fmap, Forall_true; intros out; by exists out).
  assert (∀ c c', b_done c → b_run U c c' → False) as Hstop.
  { intros c c' Hd Hs. destruct Hs as [c i a x m r'' x' Hi Hm _]. unfold b_done in Hd. rewrite Forall_lookup in Hd. destruct (Hd _ _ Hi) as [out ->]. done. }
  assert (∀ k c, nsteps (b_run U) k (b_start ps r0) c → k ≤ bound ∧ nsteps (b_run U) (bound - k) c fin) as Hall.
  { intros k c Hk. eapply (conf_all (b_run U) (bgood vss) b_done); [intros; by eapply bgood_step|exact Hstop|intros; by eapply b_diamond|exact Hb0|exact Hrun|exact HF|exact Hk]. }
  split; [intros k c Hk; by apply Hall in Hk as [? _]|]. intros c Hc.
  assert (bgood vss c) as Hgc.
  { clear -Hc Hb0 Hvss HU Hr0 Hnn. induction Hc as [c|c c1 c' Hs _ IH]; [done|]. apply IH. by eapply bgood_step. }
  split; [done|]. split.
  - intros i a x m Hi Hm. destruct Hgc as [Hts [hp Hg]]. destruct (Forall2_lookup_r _ _ _ _ _ Hts Hi) as (vs & Hv & Hx).
    destruct (th_next vss Hvss vs a x m (bc_reg c) hp) as (r2 & x2 & hp' & E2 & _); [by eapply elem_of_list_lookup_2|done|done|done|]. eauto.
  - intros Hd. apply rtc_nsteps in Hc as [k Hk]. apply Hall in Hk as [_ Hk]. inversion Hk as [|? ? ? ? Hs]; subst; [done|].
    exfalso. by eapply Hstop.
Qed.
End run.
End sys.
