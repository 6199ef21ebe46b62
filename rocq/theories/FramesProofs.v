(** Proofs about several runs of a schedule. *)
From Verif Require Import Base Bits Layout PropLayout HandlePool HandleSpec HandlePoolProofs SparseMap SparseMapProofs
  HashTable HashTableProofs HashTableMap Bitset BitsetProofs ComponentSet ComponentSetProofs
  Chunk ChunkProofs Archetype ArchetypeProofs Registry RegistryStore RegistryProofs View ViewProofs RegSpec RegSpecProofs
  RegObs RegRun PropRegistry PropView PropStorage ParallelFor ParEach ParEachProofs Access Stage PropStage
  Command CommandSpec CommandProofs PropCommand SysCommand SysCommandProofs PropSysCommand
  SystemRun SystemRunProofs PropSystemRun SysFrame SysFrameProofs PropSysFrame Frames.
Local Open Scope nat_scope.

(** * Groups of calls *)
Lemma inst_shift own0 own c : inst (own0 ++ own) (scmd_shift (length own0) c) = inst own c.
Proof.
  assert (∀ x, resolve (own0 ++ own) (href_shift (length own0) x) = resolve own x) as H.
  { intros [h|m]; cbn; [done|]. rewrite lookup_app_r by lia. f_equal. lia. }
  destruct c; cbn; by rewrite ?H.
Qed.
Lemma insts_shift dn0 l : ∀ dn ds, insts (dn0 ++ dn) (scmd_shift (length (made dn0)) <$> l) ds ↔ insts dn l ds.
Proof.
  induction l as [|c l IH]; intros dn [|[k g] ds]; cbn; try done. rewrite made_app, inst_shift, <- app_assoc. by rewrite IH.
Qed.
Lemma insts_split l1 l2 : ∀ dn ds, insts dn (l1 ++ l2) ds → ∃ ds1 ds2, ds = ds1 ++ ds2 ∧ insts dn l1 ds1 ∧ insts (dn ++ ds1) l2 ds2.
Proof.
  induction l1 as [|c l1 IH]; intros dn ds H; cbn in H.
  - exists [], ds. by rewrite app_nil_r.
  - destruct ds as [|[k g] ds]; [done|]. destruct H as [E H]. destruct (IH _ _ H) as (ds1 & ds2 & -> & H1 & H2).
    exists ((k, g) :: ds1), ds2. split; [done|]. split; [done|]. by rewrite <- app_assoc in H2.
Qed.
Lemma insts_nmakes l : ∀ dn ds, insts dn l ds → length (made ds) = nmakes l.
Proof.
  induction l as [|c l IH]; intros dn [|[k g] ds]; try done. intros [E H]. rewrite made_cons, (inst_makes _ _ _ E). unfold nmakes. rewrite filter_cons.
  change (scmd_makes c) with (makes_c c). destruct (makes_c c); [rewrite decide_True by done|rewrite decide_False by done]; cbn; [f_equal|]; by eapply IH.
Qed.
Lemma insts_assemble bs : ∀ dn ds, insts dn (assemble_from (length (made dn)) bs) ds → ∃ dss, ds = concat dss ∧ Forall2 (insts []) bs dss.
Proof.
  induction bs as [|b bs IH]; intros dn ds H; cbn in H.
  - destruct ds; [|done]. by exists [].
  - apply insts_split in H as (ds1 & ds2 & -> & H1 & H2). pose proof (insts_shift dn b [] ds1) as Hs. rewrite app_nil_r in Hs. apply Hs in H1.
    rewrite <- (insts_nmakes _ _ _ H1), <- app_length, <- made_app in H2. destruct (IH _ _ H2) as (dss & -> & Hf). exists (ds1 :: dss). split; [done|]. by constructor.
Qed.

Lemma refers_shift k c h : refers (scmd_shift k c) h ↔ refers c h.
Proof. destruct c as [?|x|x ? ?|x ?|x]; try done; destruct x; cbn; done. Qed.
Lemma typed_shift U k c : scmd_typed U (scmd_shift k c) ↔ scmd_typed U c.
Proof. by destruct c. Qed.
Lemma elem_assemble bs : ∀ k c, c ∈ assemble_from k bs → ∃ b c' k', b ∈ bs ∧ c' ∈ b ∧ c = scmd_shift k' c'.
Proof.
  induction bs as [|b bs IH]; intros k c; cbn; [by intros ?%elem_of_nil|]. intros [(c' & -> & Hc)%elem_of_list_fmap|Hc]%elem_of_app.
  - exists b, c', k. split; [left|done].
  - destruct (IH _ _ Hc) as (b' & c' & k' & ? & ? & ->). exists b', c', k'. split; [by right|done].
Qed.
Lemma assemble_elem bs : ∀ k b c, b ∈ bs → c ∈ b → ∃ k', scmd_shift k' c ∈ assemble_from k bs.
Proof.
  induction bs as [|b0 bs IH]; intros k b c Hb Hc; [by apply elem_of_nil in Hb|]. apply elem_of_cons in Hb as [->|Hb].
  - exists k. cbn. apply elem_of_app. left. by apply elem_of_list_fmap_1.
  - destruct (IH (k + nmakes b0) b c Hb Hc) as [k' ?]. exists k'. cbn. apply elem_of_app. by right.
Qed.
Lemma refers_ren f c h : refers (scmd_ren f c) h → ∃ h0, refers c h0 ∧ h = f h0.
Proof. destruct c as [?|x|x ? ?|x ?|x]; cbn; try done; (destruct x as [h0|?]; cbn; [|done]); intros [= <-]; by exists h0. Qed.
Lemma ren_refers f c h : refers c h → refers (scmd_ren f c) (f h).
Proof. destruct c as [?|x|x ? ?|x ?|x]; cbn; try done; by intros ->. Qed.
Lemma changes_ren f c h : changes (scmd_ren f c) h → ∃ h0, changes c h0 ∧ h = f h0.
Proof. destruct c as [?|x|x ? ?|x ?|x]; cbn; try done; (destruct x as [h0|?]; cbn; [|done]); intros [= <-]; by exists h0. Qed.
Lemma nmakes_ren f l : nmakes (script_ren f l) = nmakes l.
Proof. unfold nmakes. induction l as [|c l IH]; [done|]. change (script_ren f (c :: l)) with (scmd_ren f c :: script_ren f l). rewrite !filter_cons.
  assert (scmd_makes (scmd_ren f c) = scmd_makes c) as -> by (by destruct c).
  destruct (decide _); cbn; by rewrite IH. Qed.
Lemma assemble_len bs : ∀ k, length (assemble_from k bs) = sum_list (length <$> bs).
Proof. induction bs as [|b bs IH]; intros k; [done|]. cbn. by rewrite app_length, fmap_length, IH. Qed.
Lemma groups_perm f Bs1 Bs2 : Forall2 (λ b1 b2 : list (list scmd), b2 ≡ₚ (script_ren f <$> b1)) Bs1 Bs2 → concat Bs2 ≡ₚ (script_ren f <$> concat Bs1).
Proof. induction 1 as [|b1 b2 Bs1 Bs2 Hp _ IH]; [done|]. cbn. by rewrite fmap_app, Hp, IH. Qed.
Lemma sim_length f l1 l2 : script_sim f l1 l2 → length l2 = length l1.
Proof.
  intros (bs1 & bs2 & -> & -> & _ & Hp%groups_perm). unfold assemble. rewrite !assemble_len, Hp. f_equal. rewrite <- list_fmap_compose. apply list_fmap_ext. intros. cbn. apply fmap_length.
Qed.
Lemma sim_elem f l1 l2 c : script_sim f l1 l2 → c ∈ l2 → ∃ c1 k k', scmd_shift k c1 ∈ l1 ∧ c = scmd_shift k' (scmd_ren f c1).
Proof.
  intros (b1 & b2 & -> & -> & _ & Hp%groups_perm) Hc. apply elem_assemble in Hc as (b & c' & k' & Hb & Hc & ->). rewrite Hp in Hb.
  apply elem_of_list_fmap in Hb as (b0 & -> & Hb). apply elem_of_list_fmap in Hc as (c1 & -> & Hc).
  destruct (assemble_elem (concat b1) 0 b0 c1 Hb Hc) as [k Hin]. by exists c1, k, k'.
Qed.

(** * The effect of groups *)
Section props.
Context (U : universe).
Hypothesis HU : u_wf U.
Notation oks w l w' := (directs U w l [] (Ok tt) w').
Notation dcall := (crec * handle)%type.

Definition sepb (b b' : list dcall) : Prop := ∀ x y, x ∈ b → y ∈ b' → indep x y.
Definition sepbs (dss : list (list dcall)) : Prop := ∀ (j j' : nat) b b', j ≠ j' → dss !! j = Some b → dss !! j' = Some b' → sepb b b'.

Lemma oks_swap (w w' : world) b1 b2 l : sepb b1 b2 → oks w (b1 ++ b2 ++ l) w' → oks w (b2 ++ b1 ++ l) w'.
Proof.
  revert w. induction b1 as [|x b1 IH]; intros w Hs H; [done|]. cbn [app] in H. destruct x as [k g]. apply oks_cons in H as (w1 & Hd & H).
  apply IH in H; [|intros ? ? ? ?; apply Hs; [by right|done]].
  assert (oks w ((k, g) :: b2 ++ b1 ++ l) w') as H2 by (apply oks_cons; eauto).
  apply (oks_across U) in H2; [done|]. apply Forall_forall. intros y Hy. apply Hs; [left|done].
Qed.
Lemma sepbs_cons b dss : sepbs (b :: dss) ↔ (∀ b', b' ∈ dss → sepb b b' ∧ sepb b' b) ∧ sepbs dss.
Proof.
  split.
  - intros H. split.
    + intros b' [j Hj]%elem_of_list_lookup. split; [by apply (H 0 (S j))|by apply (H (S j) 0)].
    + intros j j' x y N Hx Hy. by apply (H (S j) (S j')); [congruence|..].
  - intros [H1 H2] [|j] [|j'] x y N Hx Hy; cbn in Hx, Hy; try done.
    + injection Hx as <-. apply H1. by eapply elem_of_list_lookup_2.
    + injection Hy as <-. apply H1. by eapply elem_of_list_lookup_2.
    + eapply H2; [|done|done]. congruence.
Qed.
Lemma sepbs_perm dss dss' : dss ≡ₚ dss' → sepbs dss → sepbs dss'.
Proof.
  induction 1 as [|b l l' Hp IH|b b' l|l1 l2 l3 _ IH1 _ IH2]; [done|..].
  - rewrite !sepbs_cons. intros [H1 H2]. split; [|by apply IH]. intros x Hx. apply H1. by rewrite Hp.
  - rewrite !sepbs_cons. intros (H1 & H2 & H3). split; [|split; [|done]].
    + intros x [->|Hx]%elem_of_cons; [|by apply H2]. destruct (H1 b ltac:(left)). done.
    + intros x Hx. apply H1. by right.
  - auto.
Qed.
Lemma oks_perm dss dss' : dss ≡ₚ dss' → ∀ (w w' : world), sepbs dss → oks w (concat dss) w' → oks w (concat dss') w'.
Proof.
  induction 1 as [|b l l' Hp IH|b b' l|l1 l2 l3 Hp IH1 _ IH2]; intros w w' Hs H; [done|..].
  - apply sepbs_cons in Hs as [_ Hs]. cbn in *. apply oks_app in H as (w1 & H1 & H2). apply oks_app. eauto.
  - apply sepbs_cons in Hs as [Hs _]. cbn in *. apply oks_swap; [|done]. apply (Hs b); left.
  - apply IH2; [by eapply sepbs_perm|]. by apply IH1.
Qed.

Lemma insts_sim (f f0 : handle → handle) (K : list handle) l : (∀ (c : scmd) h, c ∈ l → refers c h → h ∈ K) → (∀ h, h ∈ K → f h = f0 h) →
  ∀ dn1 dn2 ds1 ds2, insts dn1 l ds1 → insts dn2 (script_ren f0 l) ds2 →
  Forall2 (λ a b, f a = b) (made dn1) (made dn2) → Forall2 (λ a b, f a = b) (made ds1) (made ds2) → Forall2 (ren f) ds1 ds2.
Proof.
  intros Hl Hf. induction l as [|c l IH]; intros dn1 dn2 [|[k1 g1] ds1] [|[k2 g2] ds2]; try done.
  change (script_ren f0 (c :: l)) with (scmd_ren f0 c :: script_ren f0 l). cbn [insts]. intros [E1 H1] [E2 H2] Hd Hs. rewrite !made_cons in Hs. pose proof (inst_makes _ _ _ E1) as M1. pose proof (inst_makes _ _ _ E2) as M2.
  assert (makes_c (scmd_ren f0 c) = makes_c c) as Mr by (by destruct c). rewrite Mr in M2. rewrite M1, M2 in Hs.
  assert (k2 = rmap f k1) as Hk.
  { assert (∀ x h1 h2, resolve (made dn1) x = Some h1 → resolve (made dn2) (href_ren f0 x) = Some h2 → (∀ h, x = RKnown h → refers c h) → h2 = f h1) as Hx.
    { intros [h|m] h1 h2 R1 R2 Hu; cbn in R1, R2.
      - injection R1 as <-. injection R2 as <-. symmetry. apply Hf, (Hl c); [by left|by apply Hu].
      - symmetry. eapply (Forall2_lookup_lr _ _ _ _ _ _ Hd R1 R2). }
    destruct c as [args|y|y c v|y c|y]; cbn in E1, E2.
    - injection E1 as <-. by injection E2 as <-.
    - destruct (resolve (made dn1) y) as [h1|] eqn:R1; [|done]. destruct (resolve (made dn2) (href_ren f0 y)) as [h2|] eqn:R2; [|done].
      injection E1 as <-. injection E2 as <-. cbn. f_equal. eapply Hx; [done|done|]. by intros h ->.
    - destruct (resolve (made dn1) y) as [h1|] eqn:R1; [|done]. destruct (resolve (made dn2) (href_ren f0 y)) as [h2|] eqn:R2; [|done].
      injection E1 as <-. injection E2 as <-. cbn. f_equal. eapply Hx; [done|done|]. by intros h ->.
    - destruct (resolve (made dn1) y) as [h1|] eqn:R1; [|done]. destruct (resolve (made dn2) (href_ren f0 y)) as [h2|] eqn:R2; [|done].
      injection E1 as <-. injection E2 as <-. cbn. f_equal. eapply Hx; [done|done|]. by intros h ->.
    - destruct (resolve (made dn1) y) as [h1|] eqn:R1; [|done]. destruct (resolve (made dn2) (href_ren f0 y)) as [h2|] eqn:R2; [|done].
      injection E1 as <-. injection E2 as <-. cbn. f_equal. eapply Hx; [done|done|]. by intros h ->. }
  assert (∀ c0 h, c0 ∈ l → refers c0 h → h ∈ K) as Hl' by (intros c0 h Hc; apply Hl; by right).
  destruct (makes_c c) eqn:Mc.
  - apply Forall2_cons in Hs as [Hg Hs]. constructor; [split; [done|by intros _]|]. eapply (IH Hl'); [done|done| |done].
    rewrite !made_app, !made_cons, M1, M2. apply Forall2_app; [done|]. constructor; [done|]. constructor.
  - constructor; [split; [done|]; cbn; congruence|]. eapply (IH Hl'); [done|done| |done].
    rewrite !made_app, !made_cons, M1, M2. cbn. by rewrite !app_nil_r.
Qed.

(** Calls of separate groups concern different entities. *)
Lemma groups_sep (B : list (list scmd)) (DS : list (list dcall)) (K : list handle) : Forall2 (insts []) B DS → separate B → (∀ (b : list scmd) (c : scmd) (h : handle), b ∈ B → c ∈ b → refers c h → h ∈ K) →
  NoDup (made (concat DS)) → (∀ g, g ∈ made (concat DS) → g ∉ K) → sepbs DS.
Proof.
  intros Hin Hsep Hkn Hnd Hfr j j' b b' N Hb Hb' x y Hx Hy.
  destruct (Forall2_lookup_r _ _ _ _ _ Hin Hb) as (l & Hl & Hi). destruct (Forall2_lookup_r _ _ _ _ _ Hin Hb') as (l' & Hl' & Hi').
  pose proof (insts_wr U HU _ _ _ _ Hi Hx) as Wx. pose proof (insts_rd U HU _ _ _ _ Hi Hx) as Rx.
  pose proof (insts_wr U HU _ _ _ _ Hi' Hy) as Wy. pose proof (insts_rd U HU _ _ _ _ Hi' Hy) as Ry. cbn [app] in Wx, Rx, Wy, Ry.
  assert (∀ (j : nat) b g, DS !! j = Some b → g ∈ made b → g ∈ made (concat DS)) as Hm.
  { intros j0 b0 g Hb0 Hg. rewrite made_concat. eapply elem_concat; [exact Hg|]. apply elem_of_list_fmap_1. by eapply elem_of_list_lookup_2. }
  assert (∀ (j j' : nat) b b' g, j ≠ j' → DS !! j = Some b → DS !! j' = Some b' → g ∈ made b → g ∈ made b' → False) as Hdis.
  { clear -Hnd. intros j j' b b' g N Hb Hb' Hg Hg'. rewrite made_concat in Hnd.
    assert ((made <$> DS) !! j = Some (made b)) as H1 by (by rewrite list_lookup_fmap, Hb).
    assert ((made <$> DS) !! j' = Some (made b')) as H2 by (by rewrite list_lookup_fmap, Hb').
    exact (NoDup_concat_disjoint _ j j' _ _ _ Hnd N H1 H2 Hg Hg'). }
  assert (∀ (j j' : nat) b b' l l' h, j ≠ j' → DS !! j = Some b → DS !! j' = Some b' → B !! j = Some l → B !! j' = Some l' →
    (h ∈ made b ∨ ∃ c, c ∈ l ∧ writes_known c h) → (h ∈ made b' ∨ ∃ c, c ∈ l' ∧ uses_known c h) → False) as Hno.
  { clear -Hdis Hm Hfr Hsep Hkn. intros j j' b b' l l' h N Hb Hb' Hl Hl' [Hg|(c & Hc & Hw)] [Hg'|(c' & Hc' & Hu)].
    - by eapply (Hdis j j').
    - apply (Hfr h (Hm j b h Hb Hg)). exact (Hkn l' c' h (elem_of_list_lookup_2 _ _ _ Hl') Hc' Hu).
    - apply (Hfr h (Hm j' b' h Hb' Hg')). exact (Hkn l c h (elem_of_list_lookup_2 _ _ _ Hl) Hc (writes_uses _ _ Hw)).
    - exact (Hsep j j' l l' c c' h N Hl Hl' Hc Hc' Hw Hu). }
  assert (∀ h, (h ∈ made b' ∨ ∃ c, c ∈ l' ∧ writes_known c h) → (h ∈ made b' ∨ ∃ c, c ∈ l' ∧ uses_known c h)) as Hwu.
  { intros h [?|(c0 & ? & ?)]; [by left|]. right. exists c0. split; [done|]. by apply writes_uses. }
  split; [|split].
  - intros E. rewrite <- E in Wy. exact (Hno j j' _ _ _ _ _ N Hb Hb' Hl Hl' Wx (Hwu _ Wy)).
  - intros E. rewrite <- E in Ry. exact (Hno j j' _ _ _ _ _ N Hb Hb' Hl Hl' Wx Ry).
  - intros E. rewrite E in Rx. exact (Hno j' j _ _ _ _ _ (not_eq_sym N) Hb' Hb Hl' Hl Wy Rx).
Qed.

(** The renaming extended by the new handles. *)
Lemma groups_rel (K1 K2 : list handle) f0 (B : list (list scmd)) (DS1 DS2 : list (list dcall)) (w1 w2 w1' : world) :
  inj_on K1 f0 → (∀ h, h ∈ K1 → f0 h ∈ K2) → wrel K1 f0 w1 w2 → (∀ h, is_Some (w2 !! h) → h ∈ K2) →
  (∀ (b : list scmd) (c : scmd) (h : handle), b ∈ B → c ∈ b → refers c h → h ∈ K1) →
  Forall2 (insts []) B DS1 → NoDup (made (concat DS1)) → (∀ g, g ∈ made (concat DS1) → g ∉ K1 ∧ w1 !! g = None) →
  Forall2 (insts []) (script_ren f0 <$> B) DS2 → NoDup (made (concat DS2)) → (∀ g, g ∈ made (concat DS2) → g ∉ K2) →
  oks w1 (concat DS1) w1' →
  ∃ f w2', let A := K1 ++ made (concat DS1) in inj_on A f ∧ (∀ h, h ∈ K1 → f h = f0 h) ∧
    (∀ h, h ∈ A → f h ∈ K2 ++ made (concat DS2)) ∧ Forall2 (Forall2 (ren f)) DS1 DS2 ∧ oks w2 (concat DS2) w2' ∧ wrel A f w1' w2'.
Proof.
  intros Hinj0 Hf0 Hw Hk2 Hkn In1 N1 F1 In2 N2 F2 H.
  set (M1 := made (concat DS1)) in *. set (M2 := made (concat DS2)) in *.
  assert (Forall2 (λ a b : list handle, length a = length b) (made <$> DS1) (made <$> DS2)) as Hls.
  { clear -In1 In2. revert DS2 In2. induction In1 as [|b ds B DS Hb _ IH]; intros DS2 In2; cbn in In2; inversion In2; subst; [constructor|].
    cbn. constructor; [|by apply IH]. rewrite (insts_nmakes _ _ _ Hb). erewrite (insts_nmakes _ _ y) by done. by rewrite nmakes_ren. }
  assert (length M1 = length M2) as Elen.
  { clear -Hls. unfold M1, M2. rewrite !made_concat. induction Hls as [|a b l1 l2 Hab _ IH]; [done|]. cbn. rewrite !app_length. congruence. }
  set (f := λ h, if decide (h ∈ M1) then rename M1 M2 h else f0 h). pose proof (rename_all M1 M2 N1 Elen) as Hfm0.
  assert (Forall2 (λ a b, f a = b) M1 M2) as Hfm.
  { apply Forall2_same_length_lookup. split; [done|]. intros p a b Ha Hb. unfold f. rewrite decide_True by (by eapply elem_of_list_lookup_2).
    exact (Forall2_lookup_lr _ _ _ _ _ _ Hfm0 Ha Hb). }
  assert (∀ h, h ∈ K1 → f h = f0 h) as Hfi. { intros h Hh. unfold f. rewrite decide_False; [done|]. intros Hm. by apply (F1 h). }
  assert (∀ h, h ∈ M1 → f h ∈ M2) as Hf2.
  { intros h [p Hp]%elem_of_list_lookup. destruct (Forall2_lookup_l _ _ _ _ _ Hfm Hp) as (b & Hb & ->). by eapply elem_of_list_lookup_2. }
  set (A := K1 ++ M1).
  assert (inj_on A f) as Hinj.
  { intros x y [Hx|Hx]%elem_of_app [Hy|Hy]%elem_of_app E.
    - rewrite !Hfi in E by done. by apply Hinj0.
    - rewrite Hfi in E by done. exfalso. apply (F2 (f y)); [by apply Hf2|]. rewrite <- E. by apply Hf0.
    - rewrite (Hfi y) in E by done. exfalso. apply (F2 (f x)); [by apply Hf2|]. rewrite E. by apply Hf0.
    - apply elem_of_list_lookup in Hx as [p Hp], Hy as [q Hq]. destruct (Forall2_lookup_l _ _ _ _ _ Hfm Hp) as (b & Hb & E1).
      destruct (Forall2_lookup_l _ _ _ _ _ Hfm Hq) as (b' & Hb' & E2). assert (b = b') as <- by congruence.
      assert (p = q) as <- by (by eapply NoDup_lookup). congruence. }
  assert (Forall2 (Forall2 (ren f)) DS1 DS2) as Hren.
  { unfold M1, M2 in Hfm. rewrite !made_concat in Hfm. apply Forall2_concat_inv in Hfm; [|exact Hls]. clearbody f. clear -In1 In2 Hfm Hkn Hfi. revert DS2 In2 Hfm.
    induction In1 as [|b ds B DS Hb _ IH]; intros DS2 In2 Hfm; cbn in In2; inversion In2; subst; [constructor|]. cbn in Hfm. apply Forall2_cons in Hfm as [Hm Hfm].
    constructor.
    - eapply (insts_sim f f0 K1 b); [|exact Hfi|done|done|constructor|done]. intros c h. apply Hkn. left.
    - apply IH; [|done|done]. intros b' c h Hb'. apply Hkn. by right. }
  assert (wrel A f w1 w2) as Hw0.
  { destruct Hw as (Hd1 & Hd2 & Hd3). split; [intros h Hh; apply elem_of_app; left; by apply Hd1|]. split.
    - intros h [Hh|Hh]%elem_of_app; [by rewrite Hfi, Hd2|]. rewrite (proj2 (F1 h Hh)). apply eq_None_not_Some. intros Hs. by apply (F2 (f h)); [apply Hf2|apply Hk2].
    - intros g (h & Hh & ->)%Hd3. exists h. split; [apply elem_of_app; by left|]. by rewrite Hfi. }
  destruct (oks_ren U A f _ _ Hinj (Forall2_concat _ _ _ Hren)) with (w1 := w1) (w2 := w2) (w1' := w1') as (w2' & D2 & Hw'); [|done|done|].
  { apply Forall_forall. intros x Hx.
    assert (∃ ds, ds ∈ DS1 ∧ x ∈ ds) as (ds & Hds & Hxd). { rewrite elem_of_list_In, in_concat in Hx. destruct Hx as (ds & ? & ?). exists ds. by rewrite !elem_of_list_In. }
    apply elem_of_list_lookup in Hds as [j Hj]. destruct (Forall2_lookup_r _ _ _ _ _ In1 Hj) as (l & Hl & Hi). pose proof (elem_of_list_lookup_2 _ _ _ Hl) as Hlb.
    assert (∀ h, (h ∈ made ds ∨ ∃ c, c ∈ l ∧ uses_known c h) → h ∈ A) as HA.
    { intros h [Hm|(c & Hc & Hu)]; apply elem_of_app.
      - right. unfold M1. rewrite made_concat. eapply elem_concat; [exact Hm|]. apply elem_of_list_fmap_1. by eapply elem_of_list_lookup_2.
      - left. by eapply (Hkn l c). }
    split; apply HA; [exact (insts_rd U HU _ [] _ _ Hi Hxd)|]. destruct (insts_wr U HU _ [] _ _ Hi Hxd) as [?|(c & ? & ?)]; [by left|].
    right. exists c. split; [done|]. by apply writes_uses. }
  exists f, w2'. cbn. split; [done|]. split; [done|]. split; [|done].
  intros h [Hh|Hh]%elem_of_app; apply elem_of_app; [left; rewrite Hfi by done; by apply Hf0|right; by apply Hf2].
Qed.

(** * Loops over related registries *)
Lemma arg_ren f h m q : arg_of U (f h) m q = cell_ren f <$> arg_of U h m q.
Proof. unfold arg_of. destruct (decide _); [done|]. by destruct (m !! vr_cid q). Qed.
Lemma args_ren f rq h m : args_of U rq (f h, m) = row_ren f (args_of U rq (h, m)).
Proof.
  unfold args_of, row_ren. cbn [fst snd]. induction rq as [|q rq IH]; [done|]. cbn. rewrite arg_ren. destruct (arg_of U h m q); cbn; by rewrite ?IH.
Qed.
Lemma matches_ren f rq h m : matches U rq (f h, m) ↔ matches U rq (h, m).
Proof. unfold matches. rewrite !Forall_forall. split; intros H q Hq; specialize (H q Hq); cbn in *; [rewrite arg_ren in H|rewrite arg_ren]; by apply fmap_is_Some in H || by apply fmap_is_Some. Qed.
Lemma args_ent rq h m h' : CEnt h' ∈ args_of U rq (h, m) → h' = h.
Proof.
  intros (q & Hq & E)%elem_of_list_omap. unfold arg_of in E. cbn in E. destruct (decide _); [congruence|]. by destruct (m !! vr_cid q).
Qed.
Lemma assigned_fun rq g1 g2 m m1 m2 : (∀ c, g1 c = g2 c) → assigned rq g1 m m1 → assigned rq g2 m m2 → m1 = m2.
Proof. intros E H1 H2. apply map_eq. intros c. rewrite (H1 c), (H2 c). by rewrite E. Qed.

Definition erel (A : list handle) f (es1 es2 : list (handle * gmap cid val)) : Prop :=
  es2 ≡ₚ ((λ e, (f e.1, e.2)) <$> es1) ∧ ∀ e, e ∈ es1 → e.1 ∈ A.
Lemma enum_rel A f rq w1 w2 es1 es2 : inj_on A f → wrel A f w1 w2 → enumerates U rq w1 es1 → enumerates U rq w2 es2 → erel A f es1 es2.
Proof.
  intros Hi (H1 & H2 & H3) [N1 E1] [N2 E2].
  assert (∀ e, e ∈ es1 → e.1 ∈ A) as HA. { intros [h m] [Hw _]%E1. apply H1. by exists m. }
  split; [|done]. apply NoDup_Permutation; [by eapply NoDup_fmap_1|..].
  - clear -N1 HA Hi. induction es1 as [|e es IH]; [constructor|]. cbn in *. apply NoDup_cons in N1 as [Hn N1].
    constructor; [|apply IH; [done|]; intros; apply HA; by right].
    intros ([h m] & E & He)%elem_of_list_fmap. cbn in E. apply (f_equal fst) in E. cbn in E. apply Hi in E; [|apply HA; left|apply (HA (h, m)); by right].
    apply Hn. rewrite E. apply elem_of_list_fmap. by exists (h, m).
  - intros [g m]. rewrite E2. rewrite elem_of_list_fmap. split.
    + intros [Hw Hm]. destruct (H3 g ltac:(by exists m)) as (h & Hh & ->). exists (h, m). split; [done|]. apply E1. rewrite <- (H2 h Hh). split; [done|]. by apply matches_ren in Hm.
    + intros ([h m'] & E & He). cbn in E. injection E as -> ->. pose proof (HA _ He) as Hh. apply E1 in He as [Hw Hm]. cbn in Hh. rewrite (H2 h Hh). split; [done|]. by apply matches_ren.
Qed.
Lemma log_rel A f rq es1 es2 : erel A f es1 es2 → args_of U rq <$> es2 ≡ₚ (row_ren f <$> (args_of U rq <$> es1)).
Proof.
  intros [-> _]. rewrite <- !list_fmap_compose. apply Permutation_refl'. apply list_fmap_ext. intros j [h m] _. cbn. apply args_ren.
Qed.
Lemma log_in A f rq es1 es2 : erel A f es1 es2 → rows_in A (args_of U rq <$> es1).
Proof. intros [_ H] x h ([h' m] & -> & He)%elem_of_list_fmap ->%args_ent. by apply (H (h', m)). Qed.
Lemma log_distinct rq w es : enumerates U rq w es → rows_distinct (args_of U rq <$> es).
Proof.
  intros [N _] j j' x x' h Hj Hx Hx' H1 H2. rewrite list_lookup_fmap in Hx, Hx'.
  destruct (es !! j) as [[h1 m1]|] eqn:E1; [|done]. destruct (es !! j') as [[h2 m2]|] eqn:E2; [|done]. cbn in Hx, Hx'. injection Hx as <-. injection Hx' as <-.
  apply args_ent in H1 as ->. apply args_ent in H2 as ->. apply Hj. eapply (NoDup_lookup es.*1); [done|by rewrite list_lookup_fmap, E1|by rewrite list_lookup_fmap, E2].
Qed.
Lemma called_rel A f rq (g1 g2 : callback) w1 w2 w1' w2' es1 es2 : inj_on A f → wrel A f w1 w2 →
  enumerates U rq w1 es1 → enumerates U rq w2 es2 → called U rq g1 es1 w1 w1' → called U rq g2 es2 w2 w2' →
  (∀ l1 l2 x c, rows_in A [x] → g2 l2 (row_ren f x) c = g1 l1 x c) → wrel A f w1' w2'.
Proof.
  intros Hi Hw N1 N2 [C1 K1] [C2 K2] Hg. destruct (enum_rel _ _ _ _ _ _ _ Hi Hw N1 N2) as [Hp HA]. destruct Hw as (H1 & H2 & H3).
  assert (∀ h, h ∈ A → f h ∈ es2.*1 → h ∈ es1.*1) as Hb.
  { intros h Hh. rewrite Hp, <- list_fmap_compose. intros ([h' m] & E & He)%elem_of_list_fmap. cbn in E. apply Hi in E as ->; [|done|by apply (HA (h', m))]. apply elem_of_list_fmap. by exists (h', m). }
  split; [|split].
  - intros h Hs. destruct (decide (h ∈ es1.*1)) as [([h' m] & -> & He)%elem_of_list_fmap|N]; [by apply (HA (h', m))|]. rewrite K1 in Hs by done. by apply H1.
  - intros h Hh. destruct (decide (h ∈ es1.*1)) as [([h' m] & -> & He)%elem_of_list_fmap|N].
    + cbn in Hh |- *. apply elem_of_list_lookup in He as [k Hk]. destruct (C1 _ _ _ Hk) as (m1 & E1 & A1).
      assert ((f h', m) ∈ es2) as [k2 Hk2]%elem_of_list_lookup. { rewrite Hp. apply elem_of_list_fmap. exists (h', m). split; [done|]. by eapply elem_of_list_lookup_2. }
      destruct (C2 _ _ _ Hk2) as (m2 & E2 & A2). rewrite E1, E2. f_equal. eapply assigned_fun; [|exact A2|exact A1]. intros c. rewrite args_ren. apply Hg.
      intros x h ->%elem_of_list_singleton ->%args_ent. done.
    + rewrite K1 by done. rewrite K2; [by apply H2|]. intros Hx. by apply N, Hb.
  - intros g Hs. destruct (decide (g ∈ es2.*1)) as [Hg2|N].
    + revert Hg2. rewrite Hp, <- list_fmap_compose. intros ([h' m] & -> & He)%elem_of_list_fmap. exists h'. split; [|done]. by apply (HA (h', m)).
    + rewrite K2 in Hs by done. by apply H3.
Qed.

(** The program state behind a call on a view. *)
Lemma step_view n i cs ss s r op r' x :
  ready U n i cs ss s → below_wrap (2 * S n) → cs_regs cs !! i = Some r → permitted U s op → run_rop U op r = (r', Ok x) →
  (∀ s' o, rnext U s op o s' → sr_issued s' = sr_issued s ∧ sr_failed s' = sr_failed s) →
  ∃ ss' s', ready U (S n) i (put_reg i cs r') ss' s' ∧ sr_issued s' = sr_issued s ∧ sr_failed s' = sr_failed s ∧ rnext U s op (Ok x) s'.
Proof.
  intros [Hr Hrec Hb Hnd] Hbw Hi Hper E Hop.
  assert (run_sop U (At i op) (cs_regs cs) = (<[i := r']> (cs_regs cs), Ok x)) as Erun.
  { cbn [run_sop]. unfold on_reg. by rewrite Hi, E. }
  destruct (reach_step U HU n _ ss (At i op) _ _ Hr Hbw ltac:(by exists s) Erun) as [(ss' & (s0 & s' & Hs0 & Hn & ->) & Hr' & _)|[? _]]; [|done].
  rewrite Hrec in Hs0. injection Hs0 as <-. destruct (Hop _ _ Hn) as [H1 H2]. exists (<[i := s']> ss), s'. split; [|done].
  split; [done|by eapply list_lookup_insert, lookup_lt_Some| |done].
  intros b y Hy. destruct (Hb b y Hy) as (? & ? & Hne & Ht). split; [done|]. split; [done|]. split; [done|]. by rewrite list_lookup_insert_ne.
Qed.
Lemma step_each n i cs ss s r rq f r' log : view_ok U rq →
  ready U n i cs ss s → below_wrap (2 * S n) → cs_regs cs !! i = Some r → rg_each U rq f r = (r', Ok log) →
  ∃ ss' s', ready U (S n) i (put_reg i cs r') ss' s' ∧ sr_issued s' = sr_issued s ∧ sr_failed s' = sr_failed s ∧
    ∃ es, enumerates U rq (sr_world s) es ∧ log = args_of U rq <$> es ∧ called U rq f es (sr_world s) (sr_world s').
Proof.
  intros Hv Hr Hbw Hi E. destruct (step_view n i cs ss s r (OEach rq f) r' (RCalls log)) as (ss' & s' & Hr' & Hi' & Hf' & Hn); [done|done|done|exact Hv| | |].
  - cbn [run_rop]. unfold RegSpec.mapM. by rewrite E.
  - cbn [rnext]. by intros s' o (es & w' & _ & _ & _ & ->).
  - exists ss', s'. split; [done|]. split; [done|]. split; [done|]. cbn [rnext] in Hn. destruct Hn as (es & w' & H1 & H2 & H3 & ->). injection H2 as ->. by exists es.
Qed.
Lemma step_single n i cs ss s r rq r' x : view_ok U rq →
  ready U n i cs ss s → below_wrap (2 * S n) → cs_regs cs !! i = Some r → rg_single U rq r = (r', Ok x) →
  ∃ ss' s', ready U (S n) i (put_reg i cs r') ss' s' ∧ sr_issued s' = sr_issued s ∧ sr_failed s' = sr_failed s ∧ sr_world s' = sr_world s ∧
    (is_Some x ↔ ∃ h m, sr_world s !! h = Some m ∧ matches U rq (h, m)).
Proof.
  intros Hv Hr Hbw Hi E. destruct (step_view n i cs ss s r (OSingle rq) r' (RFound x)) as (ss' & s' & Hr' & Hi' & Hf' & Hn); [done|done|done|exact Hv| | |].
  - cbn [run_rop]. unfold RegSpec.mapM. by rewrite E.
  - cbn [rnext]. by intros s' o (-> & _).
  - exists ss', s'. split; [done|]. split; [done|]. split; [done|]. cbn [rnext] in Hn. destruct Hn as (-> & [(Hx & Hn)|(h & m & H1 & H2 & H3)]); (split; [done|]).
    + injection Hx as ->. split; [by intros []|]. intros (h & m & H1 & H2). by destruct (Hn h m H1).
    + injection H3 as ->. split; [|by eauto]. intros _. by exists h, m.
Qed.
Lemma single_rel A f w1 w2 rq : inj_on A f → wrel A f w1 w2 →
  (∃ h m, w1 !! h = Some m ∧ matches U rq (h, m)) ↔ (∃ h m, w2 !! h = Some m ∧ matches U rq (h, m)).
Proof.
  intros Hi (H1 & H2 & H3). split.
  - intros (h & m & Hw & Hm). exists (f h), m. rewrite H2 by (apply H1; eauto). split; [done|]. by apply matches_ren.
  - intros (g & m & Hw & Hm). destruct (H3 g ltac:(eauto)) as (h & Hh & ->). exists h, m. rewrite <- H2 by done. split; [done|]. by apply matches_ren in Hm.
Qed.

(** Related bodies on related registries. *)
Definition at_run (n i : nat) (cs : cstate) (s : sreg) (r : registry) : Prop := ∃ ss, ready U n i cs ss s ∧ cs_regs cs !! i = Some r.
Lemma prog_rel A f vs1 vs2 p1 out1 p2 out2 : body_sim A f p1 out1 p2 out2 → inj_on A f → Forall (view_ok U) vs1 → Forall (view_ok U) vs2 → prog_ok vs1 p1 → prog_ok vs2 p2 →
  ∀ n1 n2 i1 i2 cs1 cs2 s1 s2 r1 r2 r1' r2' l1 l2 v,
  at_run n1 i1 cs1 s1 r1 → at_run n2 i2 cs2 s2 r2 → wrel A f (sr_world s1) (sr_world s2) →
  run_prog U p1 out1 r1 = (r1', Ok l1) → prog_calls U p1 r1 = (r1', Ok v) → run_prog U p2 out2 r2 = (r2', Ok l2) →
  below_wrap (2 * (n1 + v)) → below_wrap (2 * (n2 + v)) →
  script_sim f l1 l2 ∧ prog_calls U p2 r2 = (r2', Ok v) ∧
  ∃ s1' s2', at_run (n1 + v) i1 (put_reg i1 cs1 r1') s1' r1' ∧ at_run (n2 + v) i2 (put_reg i2 cs2 r2') s2' r2' ∧
    wrel A f (sr_world s1') (sr_world s2') ∧ sr_issued s1' = sr_issued s1 ∧ sr_issued s2' = sr_issued s2 ∧
    sr_failed s1' = sr_failed s1 ∧ sr_failed s2' = sr_failed s2.
Proof.
  intros Hs Hinj V1 V2. pose proof (proj1 (Forall_forall _ _) V1) as Hv1. pose proof (proj1 (Forall_forall _ _) V2) as Hv2.
  induction Hs as [out1 out2 Hs|rq g1 g2 k1 k2 out1 out2 Hg _ IH|rq k1 k2 out1 out2 _ IH|nw1 nw2 rq g1 g2 k1 k2 out1 out2 Hg _ IH|c k1 out1 p2 out2 _ IH|p1 out1 c k2 out2 _ IH];
    intros Hp1 Hp2 n1 n2 i1 i2 cs1 cs2 s1 s2 r1 r2 r1' r2' l1 l2 v R1 R2 Hw E1 Ev E2 B1 B2; cbn [run_prog prog_calls prog_ok] in *.
  - injection E1 as -> ->. injection E2 as -> ->. injection Ev as <-. split; [done|]. split; [done|]. exists s1, s2. rewrite !Nat.add_0_r.
    assert (∀ i cs r n s, at_run n i cs s r → at_run n i (put_reg i cs r) s r) as Hid.
    { intros i [rs bs] r n s (ss & H & Hi). unfold put_reg. cbn [cs_regs cs_bufs] in *. rewrite list_insert_id by done. by exists ss. }
    split; [by apply Hid|]. split; [by apply Hid|]. done.
  - destruct Hp1 as [I1 P1], Hp2 as [I2 P2], R1 as (ss1 & R1 & Hi1), R2 as (ss2 & R2 & Hi2). unfold bind in *.
    destruct (rg_each U rq g1 r1) as [x1 [log1|?|]] eqn:F1; [|done|done]. destruct (rg_each U rq g2 r2) as [x2 [log2|?|]] eqn:F2; [|done|done].
    destruct (prog_calls U (k1 log1) x1) as [y1 [v1|?|]] eqn:G1; [|done|done]. injection Ev as -> <-. unfold below_wrap in *.
    destruct (step_each n1 i1 cs1 ss1 s1 r1 rq g1 x1 log1 (Hv1 _ I1) R1 ltac:(unfold below_wrap; lia) Hi1 F1) as (ss1' & s1' & R1' & Is1 & Fl1 & es1 & En1 & L1 & C1).
    destruct (step_each n2 i2 cs2 ss2 s2 r2 rq g2 x2 log2 (Hv2 _ I2) R2 ltac:(unfold below_wrap; lia) Hi2 F2) as (ss2' & s2' & R2' & Is2 & Fl2 & es2 & En2 & L2 & C2).
    pose proof (enum_rel _ _ _ _ _ _ _ Hinj Hw En1 En2) as He.
    destruct (IH log1 log2) with (n1 := S n1) (n2 := S n2) (i1 := i1) (i2 := i2) (cs1 := put_reg i1 cs1 x1) (cs2 := put_reg i2 cs2 x2) (s1 := s1') (s2 := s2')
      (r1 := x1) (r2 := x2) (r1' := r1') (r2' := r2') (l1 := l1) (l2 := l2) (v := v1) as (Hsim & -> & s1'' & s2'' & T1 & T2 & Hw' & J1 & J2 & K1 & K2).
    + rewrite L1. by eapply log_in.
    + rewrite L1. by eapply log_distinct.
    + rewrite L1, L2. by eapply log_rel.
    + apply P1.
    + apply P2.
    + exists ss1'. split; [done|]. by eapply put_at.
    + exists ss2'. split; [done|]. by eapply put_at.
    + by eapply called_rel.
    + done.
    + done.
    + done.
    + unfold below_wrap; lia.
    + unfold below_wrap; lia.
    + split; [done|]. split; [done|]. rewrite put_put in T1, T2. exists s1'', s2''. rewrite !Nat.add_succ_r. split; [done|]. split; [done|]. split; [done|]. repeat split; congruence.
  - destruct Hp1 as [I1 P1], Hp2 as [I2 P2], R1 as (ss1 & R1 & Hi1), R2 as (ss2 & R2 & Hi2). unfold bind in *.
    destruct (rg_single U rq r1) as [x1 [a1|?|]] eqn:F1; [|done|done]. destruct (rg_single U rq r2) as [x2 [a2|?|]] eqn:F2; [|done|done].
    destruct (prog_calls U (k1 a1) x1) as [y1 [v1|?|]] eqn:G1; [|done|done]. injection Ev as -> <-. unfold below_wrap in *.
    destruct (step_single n1 i1 cs1 ss1 s1 r1 rq x1 a1 (Hv1 _ I1) R1 ltac:(unfold below_wrap; lia) Hi1 F1) as (ss1' & s1' & R1' & Is1 & Fl1 & W1 & C1).
    destruct (step_single n2 i2 cs2 ss2 s2 r2 rq x2 a2 (Hv2 _ I2) R2 ltac:(unfold below_wrap; lia) Hi2 F2) as (ss2' & s2' & R2' & Is2 & Fl2 & W2 & C2).
    destruct (IH a1 a2) with (n1 := S n1) (n2 := S n2) (i1 := i1) (i2 := i2) (cs1 := put_reg i1 cs1 x1) (cs2 := put_reg i2 cs2 x2) (s1 := s1') (s2 := s2')
      (r1 := x1) (r2 := x2) (r1' := r1') (r2' := r2') (l1 := l1) (l2 := l2) (v := v1) as (Hsim & -> & s1'' & s2'' & T1 & T2 & Hw' & J1 & J2 & K1 & K2).
    + rewrite C1, C2. by eapply single_rel.
    + apply P1.
    + apply P2.
    + exists ss1'. split; [done|]. by eapply put_at.
    + exists ss2'. split; [done|]. by eapply put_at.
    + by rewrite W1, W2.
    + done.
    + done.
    + done.
    + unfold below_wrap; lia.
    + unfold below_wrap; lia.
    + split; [done|]. split; [done|]. rewrite put_put in T1, T2. exists s1'', s2''. rewrite !Nat.add_succ_r. split; [done|]. split; [done|]. split; [done|]. repeat split; congruence.
  - destruct Hp1 as (_ & I1 & P1), Hp2 as (_ & I2 & P2), R1 as (ss1 & R1 & Hi1), R2 as (ss2 & R2 & Hi2). unfold bind in *.
    destruct (rg_each U rq (λ _, g1) r1) as [x1 [log1|?|]] eqn:F1; [|done|done]. destruct (rg_each U rq (λ _, g2) r2) as [x2 [log2|?|]] eqn:F2; [|done|done].
    destruct (prog_calls U k1 x1) as [y1 [v1|?|]] eqn:G1; [|done|done]. injection Ev as -> <-. unfold below_wrap in *.
    destruct (step_each n1 i1 cs1 ss1 s1 r1 rq (λ _, g1) x1 log1 (Hv1 _ I1) R1 ltac:(unfold below_wrap; lia) Hi1 F1) as (ss1' & s1' & R1' & Is1 & Fl1 & es1 & En1 & L1 & C1).
    destruct (step_each n2 i2 cs2 ss2 s2 r2 rq (λ _, g2) x2 log2 (Hv2 _ I2) R2 ltac:(unfold below_wrap; lia) Hi2 F2) as (ss2' & s2' & R2' & Is2 & Fl2 & es2 & En2 & L2 & C2).
    destruct IH with (n1 := S n1) (n2 := S n2) (i1 := i1) (i2 := i2) (cs1 := put_reg i1 cs1 x1) (cs2 := put_reg i2 cs2 x2) (s1 := s1') (s2 := s2')
      (r1 := x1) (r2 := x2) (r1' := r1') (r2' := r2') (l1 := l1) (l2 := l2) (v := v1) as (Hsim & -> & s1'' & s2'' & T1 & T2 & Hw' & J1 & J2 & K1 & K2).
    + apply P1.
    + apply P2.
    + exists ss1'. split; [done|]. by eapply put_at.
    + exists ss2'. split; [done|]. by eapply put_at.
    + eapply called_rel; [done|exact Hw|done|done|done|done|]. intros l3 l4 x c. apply Hg.
    + done.
    + done.
    + done.
    + unfold below_wrap; lia.
    + unfold below_wrap; lia.
    + split; [done|]. split; [done|]. rewrite put_put in T1, T2. exists s1'', s2''. rewrite !Nat.add_succ_r. split; [done|]. split; [done|]. split; [done|]. repeat split; congruence.
  - by eapply IH.
  - by eapply IH.
Qed.

Lemma progs_rel A f vss ps : Forall2 prog_ok vss ps → Forall (Forall (view_ok U)) vss → Forall (λ p, body_sim A f p [] p []) ps → inj_on A f →
  ∀ n1 n2 i1 i2 cs1 cs2 s1 s2 r1 r2 r1' r2' ls1 ls2 v,
  at_run n1 i1 cs1 s1 r1 → at_run n2 i2 cs2 s2 r2 → wrel A f (sr_world s1) (sr_world s2) →
  run_progs U ps r1 = (r1', Ok ls1) → progs_calls U ps r1 = (r1', Ok v) → run_progs U ps r2 = (r2', Ok ls2) →
  below_wrap (2 * (n1 + v)) → below_wrap (2 * (n2 + v)) →
  Forall2 (script_sim f) ls1 ls2 ∧ progs_calls U ps r2 = (r2', Ok v) ∧
  ∃ s1' s2', at_run (n1 + v) i1 (put_reg i1 cs1 r1') s1' r1' ∧ at_run (n2 + v) i2 (put_reg i2 cs2 r2') s2' r2' ∧
    wrel A f (sr_world s1') (sr_world s2') ∧ sr_issued s1' = sr_issued s1 ∧ sr_issued s2' = sr_issued s2 ∧
    sr_failed s1' = sr_failed s1 ∧ sr_failed s2' = sr_failed s2.
Proof.
  intros Hp Hv Hb Hinj. induction Hp as [|vs p vss ps Hp _ IH]; intros n1 n2 i1 i2 cs1 cs2 s1 s2 r1 r2 r1' r2' ls1 ls2 v R1 R2 Hw E1 Ev E2 B1 B2; cbn [run_progs progs_calls] in *.
  - injection E1 as -> <-. injection E2 as -> <-. injection Ev as <-. split; [constructor|]. split; [done|]. exists s1, s2. rewrite !Nat.add_0_r.
    assert (∀ i cs r n s, at_run n i cs s r → at_run n i (put_reg i cs r) s r) as Hid.
    { intros i [rs bs] r n s (ss & H & Hi). unfold put_reg. cbn [cs_regs cs_bufs] in *. rewrite list_insert_id by done. by exists ss. }
    split; [by apply Hid|]. split; [by apply Hid|]. done.
  - apply Forall_cons in Hv as [Hv Hvs]. apply Forall_cons in Hb as [Hb Hbs]. unfold bind in *.
    destruct (run_prog U p [] r1) as [x1 [l1|?|]] eqn:F1; [|done|done]. destruct (run_prog U p [] r2) as [x2 [l2|?|]] eqn:F2; [|done|done].
    destruct (run_progs U ps x1) as [y1 [t1|?|]] eqn:G1; [|done|done]. injection E1 as -> <-.
    destruct (run_progs U ps x2) as [y2 [t2|?|]] eqn:G2; [|done|done]. injection E2 as -> <-.
    destruct (prog_calls_ok U _ _ _ _ _ F1) as [v1 C1]. rewrite C1 in Ev. destruct (progs_calls_ok U _ _ _ _ G1) as [v2 C2]. rewrite C2 in Ev. injection Ev as <-.
    unfold below_wrap in *.
    destruct (prog_rel A f vs vs p [] p [] Hb Hinj Hv Hv Hp Hp n1 n2 i1 i2 cs1 cs2 s1 s2 r1 r2 x1 x2 l1 l2 v1 R1 R2 Hw F1 C1 F2
      ltac:(unfold below_wrap; lia) ltac:(unfold below_wrap; lia)) as (Hsim & -> & s1' & s2' & T1 & T2 & Hw' & I1 & I2 & K1 & K2).
    destruct (IH Hvs Hbs (n1 + v1) (n2 + v1) i1 i2 _ _ s1' s2' x1 x2 r1' r2' t1 t2 v2 T1 T2 Hw' G1 C2 G2
      ltac:(unfold below_wrap; lia) ltac:(unfold below_wrap; lia)) as (Hsims & -> & s1'' & s2'' & T1' & T2' & Hw'' & I1' & I2' & K1' & K2').
    split; [by constructor|]. split; [done|]. rewrite !put_put in T1', T2'. exists s1'', s2''. rewrite !Nat.add_assoc. split; [done|]. split; [done|]. split; [done|]. repeat split; congruence.
Qed.

Lemma typed_run p : ∀ out r r' l, typed U p → Forall (scmd_typed U) out → run_prog U p out r = (r', Ok l) → Forall (scmd_typed U) l.
Proof.
  induction p as [|rq f k IH|rq k IH|nw rq f k IH|c k IH]; intros out r r' l Ht Ho E; cbn [run_prog typed] in *.
  - by injection E as _ <-.
  - unfold bind in E. destruct (rg_each U rq f r) as [r1 [log|?|]]; [|done|done]. by eapply IH.
  - unfold bind in E. destruct (rg_single U rq r) as [r1 [x|?|]]; [|done|done]. by eapply IH.
  - unfold bind in E. destruct (rg_each U rq (λ _, f) r) as [r1 [log|?|]]; [|done|done]. by eapply IH.
  - destruct Ht as [Hc Ht]. eapply IH; [done| |done]. apply Forall_app. split; [done|]. by apply Forall_singleton.
Qed.
Lemma typed_runs ps : ∀ r r' ls, Forall (typed U) ps → run_progs U ps r = (r', Ok ls) → Forall (Forall (scmd_typed U)) ls.
Proof.
  induction ps as [|p ps IH]; intros r r' ls Ht E; cbn [run_progs] in *; [by injection E as _ <-|]. apply Forall_cons in Ht as [Hp Ht].
  unfold bind in *. destruct (run_prog U p [] r) as [r1 [out|?|]] eqn:E1; [|done|done]. destruct (run_progs U ps r1) as [r2 [os|?|]] eqn:E2; [|done|done].
  injection E as _ <-. constructor; [by eapply typed_run|by eapply IH].
Qed.

Lemma fresh_handle (l : list handle) : ∃ g, g ∉ l.
Proof.
  exists (Handle (fresh (h_id <$> l)) 0). intros H. apply (elem_of_list_fmap_1 h_id) in H. by apply infinite_is_fresh in H.
Qed.
Definition hs_of (c : scmd) : list handle := match c with SCreate _ => [] | SClone x | SSet x _ _ | SRemove x _ | SDestroy x => match x with RKnown h => [h] | _ => [] end end.
Lemma hs_refers c h : refers c h → h ∈ hs_of c.
Proof. destruct c; cbn; try done; intros ->; by left. Qed.

(** A body that does not depend on the choice of handles refers to no others than it was given. *)
Lemma blind_known K A vss ps n i cs s r r' ls v : Forall2 prog_ok vss ps → Forall (Forall (view_ok U)) vss → Forall (blind K) ps → K ⊆ A →
  (∀ h, is_Some (sr_world s !! h) → h ∈ A) → at_run n i cs s r → run_progs U ps r = (r', Ok ls) → progs_calls U ps r = (r', Ok v) → below_wrap (2 * (n + v)) →
  ∀ l c h, l ∈ ls → c ∈ l → refers c h → h ∈ A.
Proof.
  intros Hp Hv Hb HK Hd R E Ev Hbw l c h Hl Hc Hh. destruct (decide (h ∈ A)) as [|N]; [done|exfalso].
  destruct (fresh_handle (l ≫= hs_of)) as [g Hg]. set (f := λ x, if decide (x ∈ A) then x else g).
  assert (∀ x, x ∈ A → f x = x) as Hf by (intros x Hx; unfold f; by rewrite decide_True).
  destruct (progs_rel A f vss ps Hp Hv) with (n1 := n) (n2 := n) (i1 := i) (i2 := i) (cs1 := cs) (cs2 := cs) (s1 := s) (s2 := s) (r1 := r) (r2 := r) (r1' := r') (r2' := r')
    (ls1 := ls) (ls2 := ls) (v := v) as (Hs & _); try done.
  - eapply Forall_impl; [exact Hb|]. intros p Hbp. apply Hbp; [done| |].
    + intros x y Hx Hy. by rewrite !Hf.
    + intros x Hx. by apply Hf, HK.
  - intros x y Hx Hy. by rewrite !Hf.
  - split; [done|]. split; [intros x Hx; by rewrite Hf|]. intros x Hx%Hd. exists x. split; [done|]. by rewrite Hf.
  - apply elem_of_list_lookup in Hl as [j Hj]. pose proof (Forall2_lookup_lr _ _ _ _ _ _ Hs Hj Hj) as Hs'.
    pose proof Hc as Hc0. destruct (sim_elem _ _ _ _ Hs' Hc) as (c1 & k & k' & _ & ->). apply refers_shift in Hh.
    destruct (refers_ren _ _ _ Hh) as (h0 & Hh0 & ->). unfold f in N, Hc0. destruct (decide (h0 ∈ A)); [done|].
    apply Hg. apply elem_of_list_bind. eexists. split; [|exact Hc0]. apply hs_refers, refers_shift. apply (ren_refers f) in Hh0. unfold f in Hh0 at 2. by rewrite decide_False in Hh0.
Qed.

Lemma Forall2_perm {X Y} (R : X → Y → Prop) l1 l1' l2 : l1 ≡ₚ l1' → Forall2 R l1 l2 → ∃ l2', l2 ≡ₚ l2' ∧ Forall2 R l1' l2'.
Proof.
  intros Hp. revert l2. induction Hp as [|x l l' _ IH|x y l|l l' l'' _ IH1 _ IH2]; intros l2 H.
  - inversion H. by exists [].
  - apply Forall2_cons_inv_l in H as (y & l2' & Hy & H & ->). destruct (IH _ H) as (l3 & P & H'). exists (y :: l3). split; [by rewrite P|by constructor].
  - apply Forall2_cons_inv_l in H as (a & l3 & Ha & H & ->). apply Forall2_cons_inv_l in H as (b & l4 & Hb & H & ->). exists (b :: a :: l4). split; [constructor|]. by repeat constructor.
  - destruct (IH1 _ H) as (l3 & P & H'). destruct (IH2 _ H') as (l4 & P' & H''). exists l4. split; [by rewrite P|done].
Qed.
Lemma separate_ren f K B : inj_on K f → (∀ (b : list scmd) (c : scmd) (h : handle), b ∈ B → c ∈ b → refers c h → h ∈ K) → separate B → separate (script_ren f <$> B).
Proof.
  intros Hi Hk Hs j j' b b' c c' h N Hb Hb' Hc Hc' Hw Hu. rewrite list_lookup_fmap in Hb, Hb'.
  destruct (B !! j) as [b0|] eqn:E; [|done]. destruct (B !! j') as [b0'|] eqn:E'; [|done]. injection Hb as <-. injection Hb' as <-.
  apply elem_of_list_fmap in Hc as (c0 & -> & Hc), Hc' as (c0' & -> & Hc'). apply changes_ren in Hw as (h0 & Hw & ->). apply refers_ren in Hu as (h1 & Hu & Eh).
  pose proof (Hk _ _ _ (elem_of_list_lookup_2 _ _ _ E) Hc (writes_uses _ _ Hw)) as K0. pose proof (Hk _ _ _ (elem_of_list_lookup_2 _ _ _ E') Hc' Hu) as K1.
  apply Hi in Eh; [|done|done]. subst h1. exact (Hs j j' b0 b0' c0 c0' h0 N E E' Hc Hc' Hw Hu).
Qed.
Lemma changes_shift k c h : changes (scmd_shift k c) h ↔ changes c h.
Proof. destruct c as [?|x|x ? ?|x ?|x]; try done; destruct x; cbn; done. Qed.
Lemma sims_groups f ls1 ls2 : Forall2 (script_sim f) ls1 ls2 → ∃ Bs1 Bs2 : list (list (list (list scmd))),
  ls1 = (λ Ls, assemble (concat Ls)) <$> Bs1 ∧ ls2 = (λ Ls, assemble (concat Ls)) <$> Bs2 ∧ Forall separate (concat Bs1) ∧
  Forall2 (λ b1 b2, b2 ≡ₚ (script_ren f <$> b1)) (concat Bs1) (concat Bs2).
Proof.
  induction 1 as [|l1 l2 ls1 ls2 (b1 & b2 & -> & -> & Hs & Hp) _ (Bs1 & Bs2 & -> & -> & Hss & Hps)].
  - exists [], []. split; [done|]. split; [done|]. split; constructor.
  - exists (b1 :: Bs1), (b2 :: Bs2). split; [done|]. split; [done|]. split; cbn; [by apply Forall_app|by apply Forall2_app].
Qed.
Lemma Forall2_concat_split {X Y} (R : X → Y → Prop) Ls l : Forall2 R (concat Ls) l → ∃ Ds, l = concat Ds ∧ Forall2 (Forall2 R) Ls Ds.
Proof.
  revert l. induction Ls as [|L Ls IH]; intros l H; cbn in H; [inversion H; by exists []|].
  apply Forall2_app_inv_l in H as (l1 & l2 & H1 & H2 & ->). destruct (IH _ H2) as (Ds & -> & H3). exists (l1 :: Ds). split; [done|by constructor].
Qed.
Lemma insts_groups (Bs : list (list (list (list scmd)))) (L : list (list dcall)) : Forall2 (insts []) ((λ Ls, assemble (concat Ls)) <$> Bs) L →
  ∃ DL : list (list (list dcall)), concat L = concat (concat DL) ∧ Forall2 (Forall2 (insts [])) (concat Bs) DL.
Proof.
  revert L. induction Bs as [|B Bs IH]; intros L H; cbn in H.
  - inversion H; subst. exists []. split; [done|constructor].
  - apply Forall2_cons_inv_l in H as (ds & L' & Hd & H & ->). destruct (IH _ H) as (DL & E & Hf).
    destruct (insts_assemble _ [] ds Hd) as (dss & -> & Hf0). apply Forall2_concat_split in Hf0 as (Ds & -> & Hf0).
    exists (Ds ++ DL). split; [cbn; by rewrite E, !concat_app|]. cbn. by apply Forall2_app.
Qed.
Lemma layers_perm f LL1 LL2 DL2 : Forall2 (λ b1 b2 : list (list scmd), b2 ≡ₚ (script_ren f <$> b1)) LL1 LL2 → Forall2 (Forall2 (insts [])) LL2 DL2 →
  ∃ DL, Forall2 (≡ₚ) DL2 DL ∧ Forall2 (λ b ds, Forall2 (insts []) (script_ren f <$> b) ds) LL1 DL.
Proof.
  intros Hp. revert DL2. induction Hp as [|b1 b2 LL1 LL2 Hp _ IH]; intros DL2 H.
  - inversion H. exists []. split; constructor.
  - apply Forall2_cons_inv_l in H as (d & DL2' & Hd & H & ->). destruct (IH _ H) as (DL & P & F). destruct (Forall2_perm _ _ _ _ Hp Hd) as (d' & Pd & Fd).
    exists (d' :: DL). split; by constructor.
Qed.
Lemma oks_layers DL DL' : Forall2 (≡ₚ) DL DL' → Forall sepbs DL' → ∀ (w w' : world), oks w (concat (concat DL')) w' → oks w (concat (concat DL)) w'.
Proof.
  induction 1 as [|d d' DL DL' Hp _ IH]; intros Hs w w' H; [done|]. apply Forall_cons in Hs as [Hd Hs]. cbn in *. rewrite concat_app in *.
  apply oks_app in H as (w1 & H1 & H2). apply oks_app. exists w1. split; [|by apply IH]. by eapply oks_perm.
Qed.
Lemma fmap_layers f (LL : list (list (list scmd))) DL : Forall2 (λ b ds, Forall2 (insts []) (script_ren f <$> b) ds) LL DL → Forall2 (insts []) (script_ren f <$> concat LL) (concat DL).
Proof. induction 1 as [|b d LL DL H _ IH]; [constructor|]. cbn. rewrite fmap_app. by apply Forall2_app. Qed.
Lemma independent_sim f K ls1 ls2 : inj_on K f → (∀ l c h, l ∈ ls1 → c ∈ l → refers c h → h ∈ K) → Forall2 (script_sim f) ls1 ls2 → independent ls1 → independent ls2.
Proof.
  intros Hinj Hk Hs Hi j j' l l' c c' h N Hl Hl' Hc Hc' Hw Hu.
  assert (∀ (j : nat) l c, ls2 !! j = Some l → c ∈ l → ∃ l1 c1 k k', ls1 !! j = Some l1 ∧ scmd_shift k c1 ∈ l1 ∧ c = scmd_shift k' (scmd_ren f c1)) as Hex.
  { clear -Hs. intros j l c Hl Hc. destruct (Forall2_lookup_r _ _ _ _ _ Hs Hl) as (l1 & Hl1 & Hsim). destruct (sim_elem _ _ _ _ Hsim Hc) as (c1 & k & k' & Hin & ->). by exists l1, c1, k, k'. }
  destruct (Hex _ _ _ Hl Hc) as (l1 & c1 & k1 & k1' & E1 & H1 & ->). destruct (Hex _ _ _ Hl' Hc') as (l2 & c2 & k2 & k2' & E2 & H2 & ->).
  apply (proj1 (changes_shift _ _ _)) in Hw. apply (proj1 (refers_shift _ _ _)) in Hu. apply changes_ren in Hw as (h0 & Hw & ->). apply refers_ren in Hu as (h1 & Hu & Eh).
  apply (changes_shift k1) in Hw. apply (refers_shift k2) in Hu.
  pose proof (Hk _ _ _ (elem_of_list_lookup_2 _ _ _ E1) H1 (writes_uses _ _ Hw)) as K0. pose proof (Hk _ _ _ (elem_of_list_lookup_2 _ _ _ E2) H2 Hu) as K1.
  apply Hinj in Eh; [|done|done]. subst h1. exact (Hi j j' l1 l2 _ _ h0 N E1 E2 H1 H2 Hw Hu).
Qed.
Lemma sum_sims f ls1 ls2 : Forall2 (script_sim f) ls1 ls2 → sum_list (length <$> ls2) = sum_list (length <$> ls1).
Proof. induction 1 as [|l1 l2 ls1 ls2 H _ IH]; [done|]. cbn. by rewrite IH, (sim_length _ _ _ H). Qed.

(** * One frame from related states *)
Context (body : sysm → sprog).
Notation progs bs := ((λ b : list sysm, body <$> b) <$> bs).
Definition states_rel (N i : nat) (K A : list handle) (f : handle → handle) (cs1 cs2 : cstate) : Prop :=
  ∃ n1 n2 ss1 ss2 s1 s2, ready U n1 i cs1 ss1 s1 ∧ ready U n2 i cs2 ss2 s2 ∧ n1 ≤ N ∧ n2 ≤ N ∧ sr_failed s1 = false ∧ sr_failed s2 = false ∧
    K ⊆ A ∧ inj_on A f ∧ (∀ h, h ∈ K → f h = h) ∧ (∀ h, h ∈ A → h ∈ sr_issued s1 ∧ f h ∈ sr_issued s2) ∧ wrel A f (sr_world s1) (sr_world s2).

Lemma frame_rel N i K A f cs1 cs2 stages bs r1 v r1' ts1 ts2 cs1' cs2' o :
  states_rel N i K A f cs1 cs2 → stages_of stages bs → Forall (Forall (well_behaved U body)) stages →
  Forall (blind K) (body <$> concat bs) → Forall (typed U) (body <$> concat bs) →
  cs_regs cs1 !! i = Some r1 → progs_calls U (body <$> concat bs) r1 = (r1', Ok v) →
  frame_run U i (progs bs) cs1 ts1 cs1' (Ok tt) → independent (scripts_of ts1) →
  below_wrap (2 * (N + (v + 5 * S (sum_list ((λ t, length (out_of (jt_th t))) <$> ts1))))) → frame_run U i (progs bs) cs2 ts2 cs2' o →
  o = Throw InsufficientChunkSize ∨ o = UB ∧ stuck U (cs_regs cs2') ∨
  o = Ok tt ∧ ∃ f', (∀ h, h ∈ A → f' h = f h) ∧
    states_rel (N + (v + 5 * S (sum_list ((λ t, length (out_of (jt_th t))) <$> ts1)))) i K (A ++ concat ((λ t, made (jt_done t)) <$> ts1)) f' cs1' cs2'.
Proof.
  intros (n1 & n2 & ss1 & ss2 & s1 & s2 & R1 & R2 & L1 & L2 & Fl1 & Fl2 & HKA & Hinj & HK & HA & Hw) Hst Hwb Hbl Hty Hi1 Ev (c1 & Hrun1 & Hfl1) Hind Hbw (c2 & Hrun2 & Hfl2).
  unfold below_wrap in Hbw.
  assert (∃ r2, cs_regs cs2 !! i = Some r2) as [r2 Hi2].
  { destruct R2 as [Hreach Hrec _ _]. destruct (reg_at U _ _ _ _ _ Hreach Hrec) as (r2 & ? & _). by exists r2. }
  destruct (frame_split U HU body _ _ _ _ _ _ _ _ _ _ R1 ltac:(unfold below_wrap; lia) Fl1 Hi1 Hst Hwb Hrun1) as (sc1 & x1 & bf1 & E1 & Ho1 & _ & Hbf1 & Hsp1).
  destruct (frame_split U HU body _ _ _ _ _ _ _ _ _ _ R2 ltac:(unfold below_wrap; lia) Fl2 Hi2 Hst Hwb Hrun2) as (sc2 & x2 & bf2 & E2 & Ho2 & _ & Hbf2 & Hsp2).
  assert (r1' = x1) as ->. { destruct (progs_calls_ok U _ _ _ _ E1) as [v' E']. rewrite Ev in E'. congruence. }
  fold (scripts_of ts1) in Ho1. rewrite Ho1 in Hind.
  assert ((λ t, length (out_of (jt_th t))) <$> ts1 = length <$> sc1) as El.
  { rewrite <- Ho1. unfold scripts_of. by rewrite <- list_fmap_compose. }
  rewrite El in Hbw |- *. clear El.
  destruct (stages_batches U body _ _ Hst Hwb) as [_ Hwb']. apply bs_views in Hwb'.
  pose proof (batch_progs U body _ Hwb') as Hpo. pose proof (batch_views U body _ Hwb') as Hvo.
  destruct (progs_rel A f _ _ Hpo Hvo) with (n1 := n1) (n2 := n2) (i1 := i) (i2 := i) (cs1 := cs1) (cs2 := cs2) (s1 := s1) (s2 := s2) (r1 := r1) (r2 := r2) (r1' := x1) (r2' := x2)
    (ls1 := sc1) (ls2 := sc2) (v := v) as (Hs & Ev2 & s1' & s2' & (ss1' & R1' & _) & (ss2' & R2' & _) & Hw' & Is1 & Is2 & F1' & F2').
  { eapply Forall_impl; [exact Hbl|]. intros p Hp. by apply Hp. }
  { done. } { by exists ss1. } { by exists ss2. } { done. } { done. } { done. } { done. } { unfold below_wrap; lia. } { unfold below_wrap; lia. }
  assert (∀ l c h, l ∈ sc1 → c ∈ l → refers c h → h ∈ A) as Hkn.
  { eapply (blind_known K A _ _ n1 i cs1 s1 r1 x1 sc1 v Hpo Hvo Hbl HKA); [apply Hw|by exists ss1|done|done|unfold below_wrap; lia]. }
  assert (∀ l c h, l ∈ sc2 → c ∈ l → refers c h → ∃ h0, h0 ∈ A ∧ h = f h0) as Hkn2.
  { intros l c h [j Hj]%elem_of_list_lookup Hc Hh. destruct (Forall2_lookup_r _ _ _ _ _ Hs Hj) as (l1 & Hl1 & Hsim).
    destruct (sim_elem _ _ _ _ Hsim Hc) as (c0 & k & k' & Hin & ->). apply refers_shift, refers_ren in Hh as (h0 & Hh & ->). exists h0. split; [|done].
    eapply Hkn; [by eapply elem_of_list_lookup_2|exact Hin|by apply refers_shift]. }
  assert (∀ sc s, Forall (Forall (scmd_typed U)) sc → (∀ l c h, l ∈ sc → c ∈ l → refers c h → h ∈ sr_issued s) → Forall (Forall (scmd_ok U (sr_issued s))) sc) as Hok.
  { intros sc s Ht Hr. apply Forall_forall. intros l Hl. apply Forall_forall. intros c Hc. split; [intros h; by apply (Hr l c h)|].
    exact (proj1 (Forall_forall _ _) (proj1 (Forall_forall _ _) Ht l Hl) c Hc). }
  assert (Forall (Forall (scmd_ok U (sr_issued s1'))) sc1) as Ok1.
  { apply Hok; [by eapply typed_runs|]. rewrite Is1. intros l c h Hl Hc Hh. by apply HA, (Hkn l c h). }
  assert (Forall (Forall (scmd_ok U (sr_issued s2'))) sc2) as Ok2.
  { apply Hok; [by eapply typed_runs|]. rewrite Is2. intros l c h Hl Hc Hh. destruct (Hkn2 l c h Hl Hc Hh) as (h0 & Hh0 & ->). by apply HA. }
  pose proof (independent_sim f A _ _ Hinj Hkn Hs Hind) as Hind2. pose proof (sum_sims _ _ _ Hs) as Esum.
  assert (recorded U i bf1 sc1 (put_reg i cs1 x1) (SConf ((λ t, STask [] (jt_done t)) <$> ts1) c1) cs1' (Ok tt)) as Rec1.
  { split; [exact Hsp1|]. split; [|exact Hfl1]. by apply Forall_fmap, Forall_true. }
  assert (recorded U i bf2 sc2 (put_reg i cs2 x2) (SConf ((λ t, STask [] (jt_done t)) <$> ts2) c2) cs2' o) as Rec2.
  { split; [exact Hsp2|]. split; [|exact Hfl2]. by apply Forall_fmap, Forall_true. }
  destruct (run_one U HU (n1 + v) i _ _ _ sc1 bf1 _ _ _ R1' ltac:(unfold below_wrap; lia) Ok1 Hbf1 Rec1) as [[T1 O1]|[? _]]; [|done].
  destruct (run_one U HU (n2 + v) i _ _ _ sc2 bf2 _ _ _ R2' ltac:(unfold below_wrap; lia) Ok2 Hbf2 Rec2) as [[T2 O2]|[-> Hstk]]; [|right; by left].
  pose proof (one_sep U HU _ _ _ _ _ _ _ _ _ _ _ _ O1 Hind Ok1) as Hs1. pose proof (one_sep U HU _ _ _ _ _ _ _ _ _ _ _ _ O2 Hind2 Ok2) as Hs2.
  destruct O1 as [Tag1 Ts1 In1 Nd1 Fr1 (rest1 & w1 & D1 & Rest1 & m1 & st1 & t1 & B1 & Le1 & _ & _ & W1 & Iss1 & Rd1)].
  destruct O2 as [Tag2 Ts2 In2 Nd2 Fr2 (rest2 & w2 & D2 & Rest2 & m2 & st2 & t2 & B2 & Le2 & _ & _ & W2 & Iss2 & Rd2)].
  rewrite (Rest1 eq_refl) in D1. destruct (Rd1 eq_refl) as [Q1 G1].
  assert (length sc2 = length sc1) as Elen by (symmetry; by eapply Forall2_length).
  rewrite Elen in Tag2, Ts2, Hbf2.
  set (js := seq 0 (length sc1)) in *. cbn [put_reg cs_bufs] in D1, D2.
  assert (NoDup js) as Hjs by apply NoDup_seq.
  assert (∀ T : list (nat * dcall), (∀ x, x ∈ T → x.1 < length sc1) → ∀ x : nat * dcall, x ∈ T → x.1 ∈ js) as Htg.
  { intros T HT x Hx. apply elem_of_seq. specialize (HT x Hx). lia. }
  assert (∀ (nb : nat) (bf : nat → nat) (T : list (nat * dcall)), (∀ j, j < length sc1 → bf j < nb) → (λ j, sel j (bybuf bf nb T)) <$> js = (λ j, sel j T) <$> js) as Hby.
  { intros nb bf T Hb. apply list_fmap_ext. intros ? j Hj%elem_of_list_lookup_2%elem_of_seq. apply sel_bybuf, Hb. lia. }
  assert (∀ (nb : nat) bf (T : list (nat * dcall)), (∀ x, x ∈ T → x.1 < length sc1) → ∀ x : nat * dcall, x ∈ bybuf bf nb T → x.1 ∈ js) as Htb.
  { intros nb bf T HT x Hx%bybuf_sub. by apply (Htg T). }
  apply (oks_by_system U js) in D1; [|done|by apply Htb|eapply sep_sub; [apply bybuf_sub|done]]. rewrite Hby in D1 by exact Hbf1.
  destruct (sims_groups _ _ _ Hs) as (Bs1 & Bs2 & EB1 & EB2 & Hsp & Hpm).
  assert (Forall2 (insts []) sc1 ((λ j, sel j T1) <$> js)) as Hin1.
  { apply Forall2_same_length_lookup. split; [by rewrite fmap_length; unfold js; rewrite seq_length|]. intros j l ds Hl Hd. rewrite list_lookup_fmap in Hd.
    destruct (js !! j) as [j'|] eqn:Ej; [|done]. cbn in Hd. injection Hd as <-. apply lookup_seq in Ej as [-> _]. by apply In1. }
  assert (Forall2 (insts []) sc2 ((λ j, sel j T2) <$> js)) as Hin2.
  { apply Forall2_same_length_lookup. split; [by rewrite fmap_length; unfold js; rewrite seq_length|]. intros j l ds Hl Hd. rewrite list_lookup_fmap in Hd.
    destruct (js !! j) as [j'|] eqn:Ej; [|done]. cbn in Hd. injection Hd as <-. apply lookup_seq in Ej as [-> _]. by apply In2. }
  rewrite EB1 in Hin1. rewrite EB2 in Hin2. destruct (insts_groups _ _ Hin1) as (DL1 & ED1 & If1). destruct (insts_groups _ _ Hin2) as (DL2 & ED2 & If2).
  destruct (layers_perm _ _ _ _ Hpm If2) as (DL2' & HpD & If2').
  assert (made (concat ((λ j, sel j T1) <$> js)) ≡ₚ made T1.*2) as P1 by (apply made_perm; symmetry; apply by_system_perm; [done|by apply Htg]).
  assert (made (concat ((λ j, sel j T2) <$> js)) ≡ₚ made T2.*2) as P2 by (apply made_perm; symmetry; apply by_system_perm; [done|by apply Htg]).
  assert (concat (concat DL2') ≡ₚ concat (concat DL2)) as HpC. { clear -HpD. induction HpD as [|d d' l l' H _ IH]; [done|]. cbn. by rewrite !concat_app, H, IH. }
  assert (made (concat (concat DL2')) ≡ₚ made T2.*2) as P2'. { rewrite <- P2, ED2. by apply made_perm. }
  rewrite ED1 in P1, D1.
  assert (∀ (b : list scmd) (c : scmd) (h : handle), b ∈ concat (concat Bs1) → c ∈ b → refers c h → h ∈ A) as HkB.
  { intros b c h Hb Hc Hh. rewrite elem_of_list_In, in_concat in Hb. destruct Hb as (L & HL & Hb). rewrite in_concat in HL. destruct HL as (B & HB & HL). apply elem_of_list_In in HB, Hb, HL.
    destruct (assemble_elem (concat B) 0 b c (elem_concat _ _ _ Hb HL) Hc) as [k Hin].
    eapply (Hkn (assemble (concat B))); [rewrite EB1; apply elem_of_list_fmap; by exists B|exact Hin|by apply refers_shift]. }
  assert (∀ n i cs ss s h, ready U n i cs ss s → is_Some (sr_world s !! h) → h ∈ sr_issued s) as Hdom.
  { clear -HU. intros n i cs ss s h [Hreach Hrec _ _]. apply (reach_swf U HU) in Hreach. pose proof (proj1 (Forall_lookup _ _) Hreach _ _ Hrec) as [Hd _]. apply Hd. }
  destruct (groups_rel A (sr_issued s2') f (concat (concat Bs1)) (concat DL1) (concat DL2') (sr_world s1') (sr_world s2') w1) as (f' & w2' & Hinj' & Hff & Hrng & _ & D2' & Hw2); try done.
  { intros h Hh. rewrite Is2. by apply HA. }
  { intros h. by apply (Hdom _ _ _ _ _ _ R2'). }
  { clear -If1. induction If1; [constructor|]. cbn. by apply Forall2_app. }
  { by rewrite P1. }
  { intros g Hg. rewrite P1 in Hg. pose proof (Fr1 _ Hg) as Hn. split; [intros Hg'; apply Hn; rewrite Is1; by apply HA|].
    apply eq_None_not_Some. intros Hsm. by apply Hn, (Hdom _ _ _ _ _ _ R1'). }
  { by apply fmap_layers. }
  { by rewrite P2'. }
  { intros g Hg. rewrite P2' in Hg. by apply Fr2. }
  assert (oks (sr_world s2') (bybuf bf2 (length (cs_bufs cs2)) T2).*2 w2') as D2''.
  { apply (oks_by_system U js); [done|by apply Htb|eapply sep_sub; [apply bybuf_sub|done]|]. rewrite Hby by exact Hbf2. rewrite ED2.
    eapply oks_layers; [exact HpD| |exact D2']. apply Forall_forall. intros D HD.
    assert (∃ B, B ∈ concat Bs1 ∧ Forall2 (insts []) (script_ren f <$> B) D) as (B & HB & HDB).
    { apply elem_of_list_lookup in HD as [j Hj]. destruct (Forall2_lookup_r _ _ _ _ _ If2' Hj) as (B & HBj & ?). exists B. split; [by eapply elem_of_list_lookup_2|done]. }
    assert (∀ (b : list scmd) (c : scmd) (h : handle), b ∈ B → c ∈ b → refers c h → h ∈ A) as HkB'. { intros b c h Hb. apply HkB. by eapply elem_concat. }
    apply (groups_sep (script_ren f <$> B) D (sr_issued s2')).
    - done.
    - apply (separate_ren f A); [done|done|]. exact (proj1 (Forall_forall _ _) Hsp _ HB).
    - intros b c h (b0 & -> & Hb)%elem_of_list_fmap (c0 & -> & Hc)%elem_of_list_fmap Hh. apply refers_ren in Hh as (h0 & Hh & ->). rewrite Is2. by apply HA, (HkB' b0 c0 h0).
    - assert (NoDup (made (concat (concat DL2')))) as Hnd by (by rewrite P2'). clear -HD Hnd. apply elem_of_list_split in HD as (l1 & l2 & ->).
      rewrite concat_app in Hnd. cbn in Hnd. rewrite !concat_app, !made_app in Hnd. apply NoDup_app in Hnd as (_ & _ & Hnd). by apply NoDup_app in Hnd as (? & _ & _).
    - intros g Hg. apply Fr2. rewrite <- P2'. revert Hg. apply elem_of_list_split in HD as (l1 & l2 & ->). intros Hg. rewrite concat_app. cbn. rewrite !concat_app, !made_app.
      apply elem_of_app. right. apply elem_of_app. by left. }
  destruct o as [[]|e|].
  - right. right. split; [done|]. exists f'. split; [done|]. rewrite (Rest2 eq_refl) in D2. pose proof (oks_det U _ _ _ _ D2 D2'') as ->. destruct (Rd2 eq_refl) as [Q2 G2].
    assert (concat ((λ t, made (jt_done t)) <$> ts1) = made (concat (concat DL1))) as ->.
    { cbn [sc_tasks] in Ts1. apply (f_equal (fmap (λ t, made (st_done t)))) in Ts1. rewrite <- !list_fmap_compose in Ts1.
      change ((λ t, made (jt_done t)) <$> ts1 = (λ j, made (sel j T1)) <$> js) in Ts1. rewrite Ts1. rewrite <- ED1, made_concat, <- list_fmap_compose. done. }
    exists m1, m2, st1, st2, t1, t2. split; [done|]. split; [done|]. split; [lia|]. split; [lia|]. split; [congruence|]. split; [congruence|].
    split; [intros h Hh; apply elem_of_app; left; by apply HKA|]. split; [done|]. split; [intros h Hh; rewrite Hff by (by apply HKA); by apply HK|]. split; [|by rewrite W1, W2].
    intros h Hh. split.
    + apply Iss1. apply elem_of_app in Hh as [Hh|Hh]; [left; rewrite Is1; by apply HA|right; by rewrite <- P1].
    + apply Iss2. apply Hrng in Hh. apply elem_of_app in Hh as [Hh|Hh]; [by left|right; by rewrite <- P2'].
  - left. f_equal. by eapply oks_throw.
  - exfalso. clear -D2. remember UB as o eqn:Eo. induction D2; done.
Qed.
End props.
