(** C70: systems that record commands beside each other. *)
From Verif Require Import Base Bits Layout HandlePool HandleSpec HandlePoolProofs SparseMap SparseMapProofs
  HashTable HashTableProofs HashTableMap Bitset BitsetProofs ComponentSet ComponentSetProofs
  Chunk ChunkProofs Archetype ArchetypeProofs Registry RegistryStore RegistryProofs View ViewProofs RegSpec RegSpecProofs
  RegObs RegRun PropRegistry PropView PropStorage Command CommandSpec CommandProofs PropCommand SysCommand SysCommandProofs.

(** No system changes an entity, known before, that another one uses. *)
Definition independent (scripts : list (list scmd)) : Prop :=
  ∀ (j j' : nat) l l' c c' h, j ≠ j' → scripts !! j = Some l → scripts !! j' = Some l' → c ∈ l → c' ∈ l' →
    writes_known c h → ¬ uses_known c' h.

(** Two registries with the same entities: [f] takes the handles of the first to those of the second. *)
Definition same_entities (U : universe) (A : list handle) (f : handle → handle) (r1 r2 : registry) : Prop :=
  rg_size r1 = rg_size r2 ∧
  ∀ h, h ∈ A →
    (∀ c x, c ≠ u_ent U → (rg_get h c r1).2 = Ok x ↔ (rg_get (f h) c r2).2 = Ok x) ∧
    (∀ cs b, (rg_has h cs r1).2 = Ok b ↔ (rg_has (f h) cs r2).2 = Ok b).

Section props.
Context (U : universe).
Hypothesis HU : u_wf U.

Notation tagged := (nat * (crec * handle))%type.
Notation kops bf T := ((λ x : tagged, CRec (bf x.1) x.2.1) <$> T).
Notation kres T := ((λ x : tagged, Ok (Some x.2.2)) <$> T).
Notation oks w l w' := (directs U w l [] (Ok tt) w').

(** The queues after recording. *)
Definition selb (bf : nat → nat) (b : nat) (T : list tagged) : list tagged := filter (λ x, bf x.1 = b) T.
Lemma selb_cons bf b x T : selb bf b (x :: T) = if decide (bf x.1 = b) then x :: selb bf b T else selb bf b T.
Proof. unfold selb. rewrite filter_cons. by case_decide. Qed.

Lemma cnexts_tagged bf T : ∀ a a', cnexts U a (kops bf T) (kres T) a' →
  ap_world a' = ap_world a ∧ ap_queues a' = imap (λ b q, q ++ (selb bf b T).*2) (ap_queues a) ∧
  NoDup (made T.*2) ∧ (∀ g, g ∈ made T.*2 → g ∉ ap_known a) ∧ ∀ g, g ∈ ap_known a' ↔ g ∈ made T.*2 ∨ g ∈ ap_known a.
Proof.
  induction T as [|[j [k g]] T IH]; intros a a' H; cbn [fmap list_fmap] in H.
  - inversion H; subst. split; [done|]. split; [|split; [constructor|split; [by intros ? ?%elem_of_nil|set_solver]]].
    apply list_eq. intros b. rewrite list_lookup_imap. destruct (ap_queues a' !! b) as [q|]; [|done]. cbn. by rewrite app_nil_r.
  - inversion H as [|? ? o a1 ? os1 ? H1 H2]; subst. cbn [fst snd] in H1. destruct H1 as [(g' & Hg & Hf & ->)|(? & ? & _)]; [|done]. injection Hg as <-.
    destruct (IH _ _ H2) as (I1 & I2 & I3 & I4 & I5). cbn [ap_world ap_queues ap_known] in I1, I2, I4, I5. split; [done|]. split; [|split; [|split]].
    + rewrite I2. apply list_eq. intros b. rewrite !list_lookup_imap. destruct (decide (bf j = b)) as [<-|N].
      * rewrite list_lookup_alter. destruct (ap_queues a !! bf j) as [q|]; [|done]. cbn. case_decide; [|done].
        cbn. by rewrite <- app_assoc.
      * rewrite list_lookup_alter_ne by done. destruct (ap_queues a !! b) as [q|]; [|done]. cbn. by case_decide.
    + cbn [fmap list_fmap snd]. rewrite made_cons. destruct (makes k) eqn:Em; [|done]. apply NoDup_cons. split; [|done]. intros Hin. apply (I4 _ Hin). by left.
    + intros g'. cbn [fmap list_fmap snd]. rewrite made_cons. destruct (makes k); [|by apply I4].
      intros [->|Hg']%elem_of_cons; [done|]. intros ?. apply (I4 _ Hg'). by right.
    + intros g'. rewrite I5. cbn [fmap list_fmap snd]. rewrite made_cons. destruct (makes k); set_solver.
Qed.

Lemma drained_concat (w : world) qs qs' o w' : drained U w qs qs' o w' → ∃ rest, directs U w (concat qs) rest o w' ∧ (o = Ok tt → rest = []).
Proof.
  induction 1 as [w|w q w1 qs qs' o w' H1 _ IH|w q rest e w' qs H1].
  - exists []. split; [constructor|done].
  - destruct IH as (rest & H2 & Hr). exists rest. split; [|done]. by eapply directs_app.
  - exists (rest ++ concat qs). split; [by apply directs_throw|done].
Qed.

(** * Lists *)
Lemma drained_empty (w : world) qs qs' o w' : drained U w qs qs' o w' → o = Ok tt → Forall (.= []) qs'.
Proof. induction 1; intros Ho; [constructor| |done]. constructor; auto. Qed.
Lemma concat_only {X} (l : list X) x nb : ∀ b, b ≤ x < b + nb → concat ((λ b, if decide (x = b) then l else []) <$> seq b nb) = l.
Proof.
  assert (∀ m b, x < b → concat ((λ b, if decide (x = b) then l else []) <$> seq b m) = []) as Hn.
  { intros m. induction m as [|m IH]; intros b Hb; [done|]. cbn. rewrite decide_False by lia. apply IH. lia. }
  induction nb as [|nb IH]; intros b Hb; [lia|]. cbn. case_decide as E.
  - subst. cbn. rewrite Hn by lia. by rewrite app_nil_r.
  - apply IH. lia.
Qed.
Lemma sel_concat j (Ts : list (list tagged)) : sel j (concat Ts) = concat (sel j <$> Ts).
Proof. induction Ts as [|T Ts IH]; [done|]. cbn [concat fmap list_fmap]. by rewrite sel_app, IH. Qed.
Lemma sel_selb bf j b T : sel j (selb bf b T) = if decide (bf j = b) then sel j T else [].
Proof.
  induction T as [|[j' x] T IH]; [by case_decide|]. rewrite selb_cons, sel_cons. cbn [fst snd].
  destruct (decide (j' = j)) as [->|N]; destruct (decide (bf j = b)) as [E|E].
  - rewrite sel_cons. cbn. rewrite decide_True by done. by rewrite IH.
  - done.
  - destruct (decide (bf j' = b)); [|done]. rewrite sel_cons. cbn. by rewrite decide_False.
  - destruct (decide (bf j' = b)); [|done]. rewrite sel_cons. cbn. by rewrite decide_False.
Qed.
Definition bybuf (bf : nat → nat) (nb : nat) (T : list tagged) : list tagged := concat ((λ b, selb bf b T) <$> seq 0 nb).
Lemma sel_bybuf bf nb T j : bf j < nb → sel j (bybuf bf nb T) = sel j T.
Proof.
  intros Hb. unfold bybuf. rewrite sel_concat, <- list_fmap_compose. rewrite <- (concat_only (sel j T) (bf j) nb 0) by lia.
  f_equal. apply list_fmap_ext. intros ? b _. cbn. apply sel_selb.
Qed.
Lemma bybuf_sub bf nb T x : x ∈ bybuf bf nb T → x ∈ T.
Proof.
  unfold bybuf. induction (seq 0 nb) as [|b bs IH]; [by intros ?%elem_of_nil|]. cbn [fmap list_fmap concat].
  intros [[_ Hx]%elem_of_list_filter|Hx]%elem_of_app; [done|by apply IH].
Qed.

Lemma bybuf_snd bf nb T : (bybuf bf nb T).*2 = concat ((λ b, (selb bf b T).*2) <$> seq 0 nb).
Proof. unfold bybuf. induction (seq 0 nb) as [|b bs IH]; [done|]. cbn [fmap list_fmap concat]. by rewrite fmap_app, IH. Qed.

Lemma by_system_perm js : ∀ T, NoDup js → (∀ x, x ∈ T → x.1 ∈ js) → T.*2 ≡ₚ concat ((λ j, sel j T) <$> js).
Proof.
  induction js as [|j js IH]; intros T Hnd Hin.
  - destruct T as [|x T]; [done|]. specialize (Hin x ltac:(by left)). by apply elem_of_nil in Hin.
  - apply NoDup_cons in Hnd as [Hj Hnd]. cbn [fmap list_fmap concat].
    assert ((λ j0, sel j0 T) <$> js = (λ j0, sel j0 (oth j T)) <$> js) as ->.
    { apply list_fmap_ext. intros ? j' Hj'%elem_of_list_lookup_2. symmetry. apply sel_oth. by intros ->. }
    rewrite <- IH; [|done|].
    + clear. induction T as [|[j' x] T IH]; [done|]. rewrite sel_cons, oth_cons. cbn [fst snd fmap list_fmap]. case_decide; cbn.
      * by rewrite <- IH.
      * rewrite IH at 1. apply Permutation_middle.
    + intros x [Hne Hx]%elem_of_list_filter. specialize (Hin x Hx). apply elem_of_cons in Hin as [?|?]; done.
Qed.
Lemma made_concat ls : made (concat ls) = concat (made <$> ls).
Proof. induction ls as [|l ls IH]; [done|]. cbn [concat fmap list_fmap]. by rewrite made_app, IH. Qed.
Lemma made_sel j T g : g ∈ made (sel j T) → g ∈ made T.*2.
Proof.
  induction T as [|[j' [k g']] T IH]; [done|]. rewrite sel_cons. cbn [fst snd fmap list_fmap]. rewrite made_cons. case_decide; [|destruct (makes k); [right|]; auto].
  rewrite made_cons. destruct (makes k); [|done]. intros [->|?]%elem_of_cons; [by left|right; auto].
Qed.
Lemma made_sel_disj j j' T g : NoDup (made T.*2) → j ≠ j' → g ∈ made (sel j T) → g ∈ made (sel j' T) → False.
Proof.
  intros Hnd N. induction T as [|[j1 [k g1]] T IH]; [by intros ?%elem_of_nil|]. rewrite !sel_cons. cbn [fst snd fmap list_fmap] in *. rewrite made_cons in Hnd.
  assert (NoDup (made T.*2) ∧ (makes k = true → g1 ∉ made T.*2)) as [Hnd' Hg1].
  { destruct (makes k); [|done]. apply NoDup_cons in Hnd as [? ?]. done. }
  case_decide as E1; case_decide as E2; [congruence|..|by apply IH]; rewrite made_cons; (destruct (makes k); [|by apply IH]).
  - intros [->|Hg]%elem_of_cons Hg'; [by eapply Hg1, made_sel|by apply IH].
  - intros Hg' [->|Hg]%elem_of_cons; [by eapply Hg1, made_sel|by apply IH].
Qed.

(** * The entities of recorded calls *)
Lemma resolve_in own x h : resolve own x = Some h → x = RKnown h ∨ h ∈ own.
Proof. destruct x as [h'|m]; cbn; [intros [= ->]; by left|]. intros ?%elem_of_list_lookup_2. by right. Qed.
Lemma insts_wr l : ∀ dn ds x, insts dn l ds → x ∈ ds → wr x ∈ made (dn ++ ds) ∨ ∃ c, c ∈ l ∧ writes_known c (wr x).
Proof.
  induction l as [|c l IH]; intros dn [|[k g] ds] x H Hx; cbn in H; try done; [by apply elem_of_nil in Hx|]. destruct H as [Hi H].
  apply elem_of_cons in Hx as [->|Hx].
  - destruct c as [args|y|y c v|y c|y]; cbn in Hi.
    + injection Hi as <-. left. rewrite made_app, made_cons. cbn. set_solver.
    + destruct (resolve (made dn) y) as [h|]; [|done]. injection Hi as <-. left. rewrite made_app, made_cons. cbn. set_solver.
    + destruct (resolve (made dn) y) as [h|] eqn:E; [|done]. injection Hi as <-. apply resolve_in in E as [->|E]; [right; eexists; split; [by left|done]|].
      left. rewrite made_app. cbn. set_solver.
    + destruct (resolve (made dn) y) as [h|] eqn:E; [|done]. injection Hi as <-. apply resolve_in in E as [->|E]; [right; eexists; split; [by left|done]|].
      left. rewrite made_app. cbn. set_solver.
    + destruct (resolve (made dn) y) as [h|] eqn:E; [|done]. injection Hi as <-. apply resolve_in in E as [->|E]; [right; eexists; split; [by left|done]|].
      left. rewrite made_app. cbn. set_solver.
  - destruct (IH _ _ _ H Hx) as [Hm|(c' & Hc & Hw)]; [|right; exists c'; split; [by right|done]]. left. by rewrite <- app_assoc in Hm.
Qed.
Lemma insts_rd l : ∀ dn ds x, insts dn l ds → x ∈ ds → rd x ∈ made (dn ++ ds) ∨ ∃ c, c ∈ l ∧ uses_known c (rd x).
Proof.
  induction l as [|c l IH]; intros dn [|[k g] ds] x H Hx; cbn in H; try done; [by apply elem_of_nil in Hx|]. destruct H as [Hi H].
  apply elem_of_cons in Hx as [->|Hx].
  - destruct c as [args|y|y c v|y c|y]; cbn in Hi.
    + injection Hi as <-. left. rewrite made_app, made_cons. cbn. set_solver.
    + destruct (resolve (made dn) y) as [h|] eqn:E; [|done]. injection Hi as <-. apply resolve_in in E as [->|E]; [right; eexists; split; [by left|done]|].
      left. rewrite made_app. cbn. set_solver.
    + destruct (resolve (made dn) y) as [h|] eqn:E; [|done]. injection Hi as <-. apply resolve_in in E as [->|E]; [right; eexists; split; [by left|done]|].
      left. rewrite made_app. cbn. set_solver.
    + destruct (resolve (made dn) y) as [h|] eqn:E; [|done]. injection Hi as <-. apply resolve_in in E as [->|E]; [right; eexists; split; [by left|done]|].
      left. rewrite made_app. cbn. set_solver.
    + destruct (resolve (made dn) y) as [h|] eqn:E; [|done]. injection Hi as <-. apply resolve_in in E as [->|E]; [right; eexists; split; [by left|done]|].
      left. rewrite made_app. cbn. set_solver.
  - destruct (IH _ _ _ H Hx) as [Hm|(c' & Hc & Hw)]; [|right; exists c'; split; [by right|done]]. left. by rewrite <- app_assoc in Hm.
Qed.
Lemma writes_uses c h : writes_known c h → uses_known c h.
Proof. by destruct c. Qed.

Definition makes_c (c : scmd) : bool := match c with SCreate _ | SClone _ => true | _ => false end.
Lemma inst_makes own c k : inst own c = Some k → makes k = makes_c c.
Proof. destruct c as [args|y|y c v|y c|y]; cbn; [by intros [= <-]|..]; (destruct (resolve own y); [|done]); by intros [= <-]. Qed.
Lemma insts_len l : ∀ dn1 dn2 ds1 ds2, insts dn1 l ds1 → insts dn2 l ds2 → length (made ds1) = length (made ds2).
Proof.
  induction l as [|c l IH]; intros dn1 dn2 [|[k1 g1] ds1] [|[k2 g2] ds2]; try done. intros [E1 H1] [E2 H2]. rewrite !made_cons.
  rewrite (inst_makes _ _ _ E1), (inst_makes _ _ _ E2). specialize (IH _ _ _ _ H1 H2). destruct (makes_c c); cbn; congruence.
Qed.

(** The calls of a system in two runs. *)
Lemma insts_ren (f : handle → handle) (K : list handle) l : (∀ (c : scmd) h, c ∈ l → uses_known c h → h ∈ K) → (∀ h, h ∈ K → f h = h) →
  ∀ dn1 dn2 ds1 ds2, insts dn1 l ds1 → insts dn2 l ds2 →
  Forall2 (λ a b, f a = b) (made dn1) (made dn2) → Forall2 (λ a b, f a = b) (made ds1) (made ds2) → Forall2 (ren f) ds1 ds2.
Proof.
  intros Hl Hf. induction l as [|c l IH]; intros dn1 dn2 [|[k1 g1] ds1] [|[k2 g2] ds2]; try done.
  intros [E1 H1] [E2 H2] Hd Hs. rewrite !made_cons in Hs. pose proof (inst_makes _ _ _ E1) as M1. pose proof (inst_makes _ _ _ E2) as M2. rewrite M1, M2 in Hs.
  assert (k2 = rmap f k1) as Hk.
  { assert (∀ x h1 h2, resolve (made dn1) x = Some h1 → resolve (made dn2) x = Some h2 → (∀ h, x = RKnown h → uses_known c h) → h2 = f h1) as Hx.
    { intros [h|m] h1 h2 R1 R2 Hu; cbn in R1, R2.
      - injection R1 as <-. injection R2 as <-. symmetry. apply Hf, (Hl c); [by left|by apply Hu].
      - symmetry. eapply (Forall2_lookup_lr _ _ _ _ _ _ Hd R1 R2). }
    destruct c as [args|y|y c v|y c|y]; cbn in E1, E2.
    - injection E1 as <-. by injection E2 as <-.
    - destruct (resolve (made dn1) y) as [h1|] eqn:R1; [|done]. destruct (resolve (made dn2) y) as [h2|] eqn:R2; [|done].
      injection E1 as <-. injection E2 as <-. cbn. f_equal. eapply Hx; [done|done|]. by intros h ->.
    - destruct (resolve (made dn1) y) as [h1|] eqn:R1; [|done]. destruct (resolve (made dn2) y) as [h2|] eqn:R2; [|done].
      injection E1 as <-. injection E2 as <-. cbn. f_equal. eapply Hx; [done|done|]. by intros h ->.
    - destruct (resolve (made dn1) y) as [h1|] eqn:R1; [|done]. destruct (resolve (made dn2) y) as [h2|] eqn:R2; [|done].
      injection E1 as <-. injection E2 as <-. cbn. f_equal. eapply Hx; [done|done|]. by intros h ->.
    - destruct (resolve (made dn1) y) as [h1|] eqn:R1; [|done]. destruct (resolve (made dn2) y) as [h2|] eqn:R2; [|done].
      injection E1 as <-. injection E2 as <-. cbn. f_equal. eapply Hx; [done|done|]. by intros h ->. }
  assert (∀ c0 h, c0 ∈ l → uses_known c0 h → h ∈ K) as Hl' by (intros c0 h Hc; apply Hl; by right).
  destruct (makes_c c) eqn:Mc.
  - apply Forall2_cons in Hs as [Hg Hs]. constructor; [split; [done|by intros _]|]. eapply (IH Hl'); [done|done| |done].
    rewrite !made_app, !made_cons, M1, M2. apply Forall2_app; [done|]. constructor; [done|]. constructor.
  - constructor; [split; [done|]; cbn; congruence|]. eapply (IH Hl'); [done|done| |done].
    rewrite !made_app, !made_cons, M1, M2. cbn. by rewrite !app_nil_r.
Qed.

Lemma Forall2_concat {X Y} (R : X → Y → Prop) ls1 ls2 : Forall2 (Forall2 R) ls1 ls2 → Forall2 R (concat ls1) (concat ls2).
Proof. induction 1; [constructor|]. cbn. by apply Forall2_app. Qed.
Lemma Forall2_concat_inv {X Y} (R : X → Y → Prop) ls1 ls2 : Forall2 (λ a b, length a = length b) ls1 ls2 → Forall2 R (concat ls1) (concat ls2) → Forall2 (Forall2 R) ls1 ls2.
Proof.
  induction 1 as [|a b l1 l2 Hl _ IH]; [constructor|]. cbn. intros H. apply Forall2_app_inv in H as [H1 H2]; [|done]. constructor; auto.
Qed.

(** * One run *)
Record one_run (n i nb : nat) (bf : nat → nat) (scripts : list (list scmd)) (w : world) (K : list handle) (fl : bool) (c : sconf) (cs' : cstate) (o : outcome unit) (T : list tagged) : Prop := {
  or_tags : ∀ x, x ∈ T → x.1 < length scripts;
  or_tasks : sc_tasks c = (λ j, STask [] (sel j T)) <$> seq 0 (length scripts);
  or_insts : ∀ (j : nat) l, scripts !! j = Some l → insts [] l (sel j T);
  or_nodup : NoDup (made T.*2);
  or_fresh : ∀ g, g ∈ made T.*2 → g ∉ K;
  or_flush : ∃ rest w', directs U w (bybuf bf nb T).*2 rest o w' ∧ (o = Ok tt → rest = []) ∧
    ∃ m ss' s', m ≤ n + 5 * S (length T) ∧ length T = sum_list (length <$> scripts) ∧ reach U m (cs_regs cs') ss' ∧ ss' !! i = Some s' ∧ sr_world s' = w' ∧
      (∀ g, g ∈ K ∨ g ∈ made T.*2 → g ∈ sr_issued s') ∧ (o = Ok tt → ready U m i cs' ss' s' ∧ sr_failed s' = fl) }.

Lemma run_one n i cs ss s scripts bf c cs' o : ready U n i cs ss s →
  below_wrap (2 * (n + 5 * S (sum_list (length <$> scripts)))) →
  Forall (Forall (scmd_ok U (sr_issued s))) scripts → (∀ j, j < length scripts → bf j < length (cs_bufs cs)) →
  recorded U i bf scripts cs c cs' o →
  (∃ T, one_run n i (length (cs_bufs cs)) bf scripts (sr_world s) (sr_issued s) (sr_failed s) c cs' o T) ∨ (o = UB ∧ stuck U (cs_regs cs')).
Proof.
  intros Hr Hbw Hok Hbf (Hrun & Hd & Hfl).
  assert (∀ (j : nat) td dn, sc_tasks (rec_start scripts cs) !! j = Some (STask td dn) → scripts !! j = Some td ∧ dn = []) as Hst.
  { intros j td dn. cbn. rewrite list_lookup_fmap. destruct (scripts !! j); [|done]. intros [= -> <-]. done. }
  assert (length (sc_tasks (rec_start scripts cs)) = length scripts) as El by (cbn; apply fmap_length).
  destruct (run_trace U i bf (length (cs_bufs cs)) (sr_issued s) _ _ Hrun Hd) as (T & E & Ht & Hl & Hin & Hn & Hp).
  { by rewrite El. }
  { intros j td dn [Hj _]%Hst. by eapply (proj1 (Forall_lookup _ _) Hok). }
  rewrite El in Hl, Hin. cbn [rec_start sc_tasks sc_state] in *.
  rewrite <- list_fmap_compose in Hn. change (length ∘ st_todo ∘ (λ l, STask l [])) with (@length scmd) in Hn.
  set (ops := kops bf T ++ [CFlush]).
  assert (run_cops U i ops cs = (cs', kres T ++ [omap_out (λ _, None) o])) as Erun.
  { unfold ops. clear -E Hfl. revert cs E. induction T as [|x T IH]; intros cs E.
    - cbn in E. injection E as ->. cbn. unfold bind. rewrite Hfl. by destruct o as [[]|e|].
    - cbn [fmap list_fmap app run_cops] in E |- *. destruct (run_cop U i (CRec (bf x.1) x.2.1) cs) as [cs1 o1] eqn:E1.
      destruct o1 as [g|e|]; [| |by injection E]; (destruct (run_cops U i (kops bf T) cs1) as [cs2 os2] eqn:E2; injection E as -> -> ->; by rewrite (IH _ E2)). }
  assert (all_permitted U (length (cs_bufs cs)) ops) as Hperm.
  { unfold ops. apply Forall_app. split; [exact Hp|by repeat constructor]. }
  assert (length ops = S (length T)) as Elen by (unfold ops; rewrite app_length, fmap_length; cbn; lia).
  destruct (history_full U HU n i cs ss s ops cs' _ Hr ltac:(rewrite Elen, Hn; exact Hbw) Erun Hperm) as [(a' & m & ss' & s' & Hx & Hm & Hc & Hfail)|[Hu Hstuck]].
  2:{ right. rewrite last_snoc in Hu. injection Hu as Hu. split; [by destruct o|done]. }
  left. exists T. apply cnexts_app in Hx as (os1 & os2 & a1 & Eo & H1 & H2). pose proof (cnexts_len _ _ _ _ _ H2) as Hl2.
  destruct os2 as [|o2 [|]]; try done. apply app_inj_tail in Eo as [<- <-].
  destruct (cnexts_tagged bf T _ _ H1) as (W & Q & M1 & M2 & M3). cbn [aprog_of ap_world ap_queues ap_known] in W, Q, M2, M3.
  inversion H2 as [|? ? ? ? ? ? ? H3 H4]; subst. inversion H4; subst. destruct H3 as (o1 & w' & qs' & Hdr & Ho & ->).
  assert (o = o1) as <- by (destruct o as [[]|?|], o1 as [[]|?|]; cbn in Ho; congruence). clear Ho.
  split; [done| | |done|done|].
  - apply list_eq. intros j. rewrite list_lookup_fmap. destruct (decide (j < length scripts)) as [Hj|Hj].
    + rewrite lookup_seq_lt by done. cbn. destruct (lookup_lt_is_Some_2 scripts j Hj) as [l Hlk].
      destruct (Ht j l []) as [-> _]; [|done]. rewrite list_lookup_fmap, Hlk. done.
    + rewrite lookup_seq_ge by lia. cbn. apply lookup_ge_None. lia.
  - intros j l Hlk. destruct (Ht j l []) as [_ ?]; [|done]. by rewrite list_lookup_fmap, Hlk.
  - pose proof (drained_empty _ _ _ _ _ Hdr) as Hemp. rewrite W, Q in Hdr. apply drained_concat in Hdr as (rest & Hdr & Hrest). exists rest, w'. split; [|split; [done|]].
    + replace (bybuf bf (length (cs_bufs cs)) T).*2 with
        (concat (imap (λ (b : nat) (q : list (crec * handle)), q ++ (selb bf b T).*2) ((λ _ : buffer, []) <$> cs_bufs cs))); [done|].
      rewrite bybuf_snd. f_equal. apply list_eq. intros b. rewrite list_lookup_imap, !list_lookup_fmap. destruct (decide (b < length (cs_bufs cs))) as [Hb|Hb].
      * rewrite lookup_seq_lt by done. destruct (lookup_lt_is_Some_2 _ _ Hb) as [x Hx]. by rewrite Hx.
      * rewrite lookup_seq_ge by lia. by rewrite (lookup_ge_None_2 (cs_bufs cs)) by lia.
    + exists m, ss', s'. rewrite Elen in Hm. split; [lia|]. split; [done|]. split; [apply (ci_reach _ _ _ _ _ _ _ Hc)|].
      split; [apply (ci_rec _ _ _ _ _ _ _ Hc)|]. split; [apply (ci_world _ _ _ _ _ _ _ Hc)|]. split.
      * intros g Hg. apply (ci_known _ _ _ _ _ _ _ Hc). cbn. apply M3. destruct Hg as [Hg|Hg]; [by right|by left].
      * intros ->. split; [eapply cinv_ready; [exact Hc|by apply Hemp]|]. apply Hfail. apply Forall_app. split; [|by repeat econstructor].
        apply Forall_fmap, Forall_forall. intros x _. cbn. eauto.
Qed.

(** * Two runs *)
Lemma one_sep n i nb bf scripts w K fl c cs' o T : one_run n i nb bf scripts w K fl c cs' o T → independent scripts →
  Forall (Forall (scmd_ok U K)) scripts → sep T.
Proof.
  intros [Htag _ Hin Hnd Hfr _] Hind Hok [j x] [j' y] Hx Hy N. cbn in N |- *.
  destruct (lookup_lt_is_Some_2 scripts j (Htag _ Hx)) as [l Hl]. destruct (lookup_lt_is_Some_2 scripts j' (Htag _ Hy)) as [l' Hl'].
  apply sel_elem in Hx, Hy.
  assert (∀ (j : nat) l c h, scripts !! j = Some l → c ∈ l → uses_known c h → h ∈ K) as Hkn.
  { intros j0 l0 c0 h Hj0 Hc0 Hu. pose proof (proj1 (Forall_lookup _ _) Hok _ _ Hj0) as Ho. by apply (proj1 (Forall_forall _ _) Ho _ Hc0). }
  pose proof (insts_wr _ _ _ _ (Hin _ _ Hl) Hx) as Wx. pose proof (insts_rd _ _ _ _ (Hin _ _ Hl) Hx) as Rx.
  pose proof (insts_wr _ _ _ _ (Hin _ _ Hl') Hy) as Wy. pose proof (insts_rd _ _ _ _ (Hin _ _ Hl') Hy) as Ry. cbn [app] in Wx, Rx, Wy, Ry.
  assert (∀ (j j' : nat) l l' h, j ≠ j' → scripts !! j = Some l → scripts !! j' = Some l' →
    (h ∈ made (sel j T) ∨ ∃ c, c ∈ l ∧ writes_known c h) → (h ∈ made (sel j' T) ∨ ∃ c, c ∈ l' ∧ uses_known c h) → False) as Hno.
  { clear -Hnd Hfr Hind Hkn. intros j j' l l' h N Hl Hl' [Hm|(c & Hc & Hw)] [Hm'|(c' & Hc' & Hu)].
    - by eapply made_sel_disj.
    - apply (Hfr h); [by eapply made_sel|by eapply Hkn].
    - apply (Hfr h); [by eapply made_sel|exact (Hkn _ _ _ _ Hl Hc (writes_uses _ _ Hw))].
    - exact (Hind j j' l l' c c' h N Hl Hl' Hc Hc' Hw Hu). }
  assert (∀ (h : handle) (l : list scmd), (h ∈ made (sel j' T) ∨ ∃ c, c ∈ l ∧ writes_known c h) → (h ∈ made (sel j' T) ∨ ∃ c, c ∈ l ∧ uses_known c h)) as Hwu.
  { intros h l0 [?|(c0 & ? & ?)]; [by left|]. right. exists c0. split; [done|]. by apply writes_uses. }
  split; [|split].
  - intros E. rewrite <- E in Wy. exact (Hno j j' l l' _ N Hl Hl' Wx (Hwu _ _ Wy)).
  - intros E. rewrite <- E in Ry. exact (Hno j j' l l' _ N Hl Hl' Wx Ry).
  - intros E. rewrite E in Rx. exact (Hno j' j l' l _ (not_eq_sym N) Hl' Hl Wy Rx).
Qed.

Lemma sep_sub T T' : (∀ x, x ∈ T' → x ∈ T) → sep T → sep T'.
Proof. intros H Hs x y Hx Hy. apply Hs; auto. Qed.

(** The renaming that takes the new handles of one run to those of the other. *)
Definition rename (M1 M2 : list handle) (h : handle) : handle := default h ((list_to_map (zip M1 M2) : gmap handle handle) !! h).
Lemma rename_other M1 M2 h : h ∉ M1 → rename M1 M2 h = h.
Proof.
  intros Hh. unfold rename. rewrite not_elem_of_list_to_map_1; [done|]. intros (x & -> & Hx)%elem_of_list_fmap.
  destruct x as [a b]. apply Hh. by eapply elem_of_zip_l.
Qed.
Lemma rename_all M1 M2 : NoDup M1 → length M1 = length M2 → Forall2 (λ a b, rename M1 M2 a = b) M1 M2.
Proof.
  intros Hnd Hl. apply Forall2_same_length_lookup. split; [done|]. intros p a b Ha Hb. unfold rename.
  assert ((list_to_map (zip M1 M2) : gmap handle handle) !! a = Some b) as ->; [|done].
  apply elem_of_list_to_map; [by rewrite fst_zip by lia|]. apply elem_of_list_lookup. exists p. by rewrite lookup_zip_with, Ha, Hb.
Qed.

Lemma reg_at n rs ss (i : nat) s : reach U n rs ss → ss !! i = Some s → ∃ r, rs !! i = Some r ∧ reached U n r s.
Proof.
  intros H Hs. assert (length rs = length ss) as El.
  { destruct H as [k|? ? ? ? ? ? ? ? ? ? ? H]; [by rewrite !replicate_length|by eapply Forall2_length]. }
  destruct (lookup_lt_is_Some_2 rs i) as [r Hr]; [rewrite El; by eapply lookup_lt_Some|]. exists r. split; [done|]. by exists rs, ss, i.
Qed.
Lemma same_ents A f r1 s1 n1 r2 s2 n2 : reached U n1 r1 s1 → below_wrap (2 * n1) → reached U n2 r2 s2 → below_wrap (2 * n2) →
  inj_on A f → wrel A f (sr_world s1) (sr_world s2) → same_entities U A f r1 r2.
Proof.
  intros R1 B1 R2 B2 Hi Hw. pose proof (reached_shows U HU _ _ _ R1 B1) as S1. pose proof (reached_shows U HU _ _ _ R2 B2) as S2.
  split; [by rewrite (sh_size _ _ _ S1), (sh_size _ _ _ S2), (wrel_size A f _ _ Hi Hw)|]. intros h Hh.
  destruct (reached_ri U HU _ _ _ R1 B1) as (iss1 & hp1 & [_ I1 _]). destruct (reached_ri U HU _ _ _ R2 B2) as (iss2 & hp2 & [_ I2 _]).
  pose proof (proj1 (proj2 Hw) h Hh) as E. destruct (sr_world s1 !! h) as [m|] eqn:H1.
  - split.
    + intros c x Hc. by rewrite (get_spec U HU _ _ _ _ _ _ _ _ _ _ c I1 H1 Hc), (get_spec U HU _ _ _ _ _ _ _ _ _ _ c I2 E Hc).
    + intros cs b. by rewrite (has_spec U _ _ _ _ _ _ _ _ _ _ cs I1 H1), (has_spec U _ _ _ _ _ _ _ _ _ _ cs I2 E).
  - destruct (out_specs U _ _ _ _ _ _ _ _ h I1 H1) as (_ & _ & _ & _ & G1 & K1 & _).
    destruct (out_specs U _ _ _ _ _ _ _ _ _ I2 E) as (_ & _ & _ & _ & G2 & K2 & _). split.
    + intros c x Hc. by rewrite G1, G2.
    + intros cs b. by rewrite K1, K2.
Qed.

(** The systems run twice from the same state, on other threads and in another order.  If the first flush succeeds, so
    does the second, unless a layout is refused or behaviour is undefined as in C17 and C18; the calls of
    every system were the same, and both registries hold the same entities, up to the choice of the new handles. *)
Theorem C70_independent_partial n i cs ss s scripts bf1 bf2 c1 c2 cs1 cs2 o :
  ready U n i cs ss s → below_wrap (2 * (n + 5 * S (sum_list (length <$> scripts)))) →
  Forall (Forall (scmd_ok U (sr_issued s))) scripts → independent scripts →
  (∀ j, j < length scripts → bf1 j < length (cs_bufs cs) ∧ bf2 j < length (cs_bufs cs)) →
  recorded U i bf1 scripts cs c1 cs1 (Ok tt) → recorded U i bf2 scripts cs c2 cs2 o →
  let A := sr_issued s ++ concat ((λ t, made (st_done t)) <$> sc_tasks c1) in
  o = Throw InsufficientChunkSize ∨ o = UB ∧ stuck U (cs_regs cs2) ∨
  o = Ok tt ∧ ∃ f, inj_on A f ∧ (∀ h, h ∈ sr_issued s → f h = h) ∧
    Forall2 (λ t1 t2, Forall2 (ren f) (st_done t1) (st_done t2)) (sc_tasks c1) (sc_tasks c2) ∧
    ∃ r1 r2, cs_regs cs1 !! i = Some r1 ∧ cs_regs cs2 !! i = Some r2 ∧ same_entities U A f r1 r2.
Proof.
  intros Hr Hbw Hok Hind Hbf Hrun1 Hrun2 A.
  destruct (run_one _ _ _ _ _ _ _ _ _ _ Hr Hbw Hok (λ j Hj, proj1 (Hbf j Hj)) Hrun1) as [[T1 O1]|[? _]]; [|done].
  destruct (run_one _ _ _ _ _ _ _ _ _ _ Hr Hbw Hok (λ j Hj, proj2 (Hbf j Hj)) Hrun2) as [[T2 O2]|[-> Hst]].
  2:{ right. by left. }
  pose proof (one_sep _ _ _ _ _ _ _ _ _ _ _ _ O1 Hind Hok) as Hs1. pose proof (one_sep _ _ _ _ _ _ _ _ _ _ _ _ O2 Hind Hok) as Hs2.
  destruct O1 as [Tag1 Ts1 In1 Nd1 Fr1 (rest1 & w1 & D1 & Rest1 & m1 & ss1 & s1 & B1 & L1 & R1 & S1 & W1 & _)].
  destruct O2 as [Tag2 Ts2 In2 Nd2 Fr2 (rest2 & w2 & D2 & Rest2 & m2 & ss2 & s2 & B2 & L2 & R2 & S2 & W2 & _)].
  set (js := seq 0 (length scripts)). set (nb := length (cs_bufs cs)) in *.
  assert (NoDup js) as Hjs by apply NoDup_seq.
  assert (∀ T : list tagged, (∀ x, x ∈ T → x.1 < length scripts) → ∀ x : tagged, x ∈ T → x.1 ∈ js) as Htg.
  { intros T HT x Hx. apply elem_of_seq. specialize (HT x Hx). lia. }
  set (M1 := concat ((λ j, made (sel j T1)) <$> js)). set (M2 := concat ((λ j, made (sel j T2)) <$> js)).
  assert (∀ T : list tagged, concat ((λ j, made (sel j T)) <$> js) = made (concat ((λ j, sel j T) <$> js))) as EM.
  { intros T. rewrite made_concat, <- list_fmap_compose. done. }
  assert (M1 ≡ₚ made T1.*2) as P1 by (unfold M1; rewrite EM; apply made_perm; symmetry; apply by_system_perm; [done|by apply Htg]).
  assert (M2 ≡ₚ made T2.*2) as P2 by (unfold M2; rewrite EM; apply made_perm; symmetry; apply by_system_perm; [done|by apply Htg]).
  assert (NoDup M1) as N1 by (by rewrite P1). assert (NoDup M2) as N2 by (by rewrite P2).
  assert (∀ g, g ∈ M1 → g ∉ sr_issued s) as F1 by (intros g; rewrite P1; apply Fr1).
  assert (∀ g, g ∈ M2 → g ∉ sr_issued s) as F2 by (intros g; rewrite P2; apply Fr2).
  assert (Forall2 (λ a b : list handle, length a = length b) ((λ j, made (sel j T1)) <$> js) ((λ j, made (sel j T2)) <$> js)) as Hls.
  { apply Forall2_fmap, Forall_Forall2_diag, Forall_forall. intros j Hj%elem_of_seq. destruct (lookup_lt_is_Some_2 scripts j ltac:(lia)) as [l Hl].
    by eapply insts_len; [apply In1|apply In2]. }
  assert (length M1 = length M2) as Elen.
  { clear -Hls. unfold M1, M2. induction Hls as [|a b l1 l2 Hab _ IH]; [done|]. cbn. rewrite !app_length. congruence. }
  set (f := rename M1 M2). pose proof (rename_all M1 M2 N1 Elen) as Hfm. fold f in Hfm.
  assert (∀ h, h ∈ sr_issued s → f h = h) as Hfi by (intros h Hh; apply rename_other; intros ?; by eapply F1).
  assert (A = sr_issued s ++ M1) as EA by (unfold A, M1; rewrite Ts1, <- list_fmap_compose; done). rewrite EA. clear EA A. set (A := sr_issued s ++ M1).
  assert (∀ h, h ∈ M1 → f h ∈ M2) as Hf2.
  { intros h [p Hp]%elem_of_list_lookup. destruct (Forall2_lookup_l _ _ _ _ _ Hfm Hp) as (b & Hb & ->). by eapply elem_of_list_lookup_2. }
  assert (inj_on A f) as Hinj.
  { intros x y [Hx|Hx]%elem_of_app [Hy|Hy]%elem_of_app E.
    - by rewrite !Hfi in E.
    - rewrite Hfi in E by done. exfalso. apply (F2 (f y)); [by apply Hf2|by rewrite <- E].
    - rewrite (Hfi y) in E by done. exfalso. apply (F2 (f x)); [by apply Hf2|by rewrite E].
    - apply elem_of_list_lookup in Hx as [p Hp], Hy as [q Hq]. destruct (Forall2_lookup_l _ _ _ _ _ Hfm Hp) as (b & Hb & E1).
      destruct (Forall2_lookup_l _ _ _ _ _ Hfm Hq) as (b' & Hb' & E2). assert (b = b') as <- by congruence.
      assert (p = q) as <- by (by eapply NoDup_lookup). congruence. }
  assert (wrel A f (sr_world s) (sr_world s)) as Hw0.
  { pose proof Hr as [Hreach Hrec _ _]. apply (reach_swf U HU) in Hreach. pose proof (proj1 (Forall_lookup _ _) Hreach _ _ Hrec) as [Hd _].
    split; [intros h Hh; apply elem_of_app; left; by apply Hd|]. split.
    - intros h [Hh|Hh]%elem_of_app; [by rewrite Hfi|]. transitivity (@None (gmap cid val)).
      + apply eq_None_not_Some. intros Hx. by apply (F2 (f h)); [apply Hf2|apply Hd].
      + symmetry. apply eq_None_not_Some. intros Hx. by apply (F1 h); [|apply Hd].
    - intros g Hg%Hd. exists g. split; [apply elem_of_app; by left|]. by rewrite Hfi. }
  assert (Forall2 (Forall2 (ren f)) ((λ j, sel j T1) <$> js) ((λ j, sel j T2) <$> js)) as Hren.
  { apply Forall2_concat_inv in Hfm; [|exact Hls]. apply Forall2_fmap, Forall_Forall2_diag, Forall_forall. intros j Hj.
    assert (Forall2 (λ a b, f a = b) (made (sel j T1)) (made (sel j T2))) as Hm.
    { apply elem_of_list_lookup in Hj as [p Hp]. eapply (Forall2_lookup_lr _ _ _ p _ _ Hfm); by rewrite list_lookup_fmap, Hp. }
    apply elem_of_seq in Hj. destruct (lookup_lt_is_Some_2 scripts j ltac:(lia)) as [l Hl].
    eapply (insts_ren f (sr_issued s) l); [|done|by apply In1|by apply In2|constructor|exact Hm].
    intros c h Hc Hu. pose proof (proj1 (Forall_lookup _ _) Hok _ _ Hl) as Ho. by apply (proj1 (Forall_forall _ _) Ho _ Hc). }
  assert (∀ (bf : nat → nat) (T : list tagged), (∀ j, j < length scripts → bf j < nb) → (λ j, sel j (bybuf bf nb T)) <$> js = (λ j, sel j T) <$> js) as Hby.
  { intros bf T Hb. apply list_fmap_ext. intros ? j Hj%elem_of_list_lookup_2%elem_of_seq. apply sel_bybuf, Hb. lia. }
  assert (∀ bf (T : list tagged), (∀ x, x ∈ T → x.1 < length scripts) → ∀ x : tagged, x ∈ bybuf bf nb T → x.1 ∈ js) as Htb.
  { intros bf T HT x Hx%bybuf_sub. by apply (Htg T). }
  rewrite (Rest1 eq_refl) in D1.
  apply (oks_by_system U js) in D1; [|done|by apply Htb|eapply sep_sub; [apply bybuf_sub|done]]. rewrite Hby in D1 by apply Hbf.
  destruct (oks_ren U A f _ _ Hinj (Forall2_concat _ _ _ Hren)) with (w1 := sr_world s) (w2 := sr_world s) (w1' := w1) as (w2' & D2' & Hw'); [|done|done|].
  { apply Forall_forall. intros x Hx. assert (x ∈ T1.*2) as ([j y] & E & Hx1)%elem_of_list_fmap by (by rewrite (by_system_perm js T1 Hjs (Htg _ Tag1))).
    cbn in E. subst y. destruct (lookup_lt_is_Some_2 scripts j (Tag1 _ Hx1)) as [l Hl]. apply sel_elem in Hx1.
    assert (∀ h, (h ∈ made (sel j T1) ∨ ∃ c, c ∈ l ∧ uses_known c h) → h ∈ A) as HA.
    { intros h [Hm|(c & Hc & Hu)]; apply elem_of_app.
      - right. rewrite P1. by eapply made_sel.
      - left. pose proof (proj1 (Forall_lookup _ _) Hok _ _ Hl) as Ho. by apply (proj1 (Forall_forall _ _) Ho _ Hc). }
    split; apply HA; [exact (insts_rd _ [] _ _ (In1 _ _ Hl) Hx1)|]. destruct (insts_wr _ [] _ _ (In1 _ _ Hl) Hx1) as [?|(c & ? & ?)]; [by left|].
    right. exists c. split; [done|]. by apply writes_uses. }
  rewrite <- (Hby bf2) in D2' by apply Hbf. apply (oks_by_system U js) in D2'; [|done|by apply Htb|eapply sep_sub; [apply bybuf_sub|done]].
  destruct o as [[]|e|].
  - right. right. split; [done|]. exists f. split; [done|]. split; [done|]. split.
    { rewrite Ts1, Ts2. apply Forall2_fmap, Forall_Forall2_diag, Forall_forall. intros j [p Hp]%elem_of_list_lookup. cbn. fold js in Hp.
      eapply (Forall2_lookup_lr _ _ _ p _ _ Hren); by rewrite list_lookup_fmap, Hp. }
    rewrite (Rest2 eq_refl) in D2. pose proof (oks_det _ _ _ _ _ D2 D2') as ->.
    destruct (reg_at _ _ _ _ _ R1 S1) as (r1 & E1 & G1). destruct (reg_at _ _ _ _ _ R2 S2) as (r2 & E2 & G2).
    exists r1, r2. split; [done|]. split; [done|]. subst w1 w2'. eapply same_ents; [exact G1| |exact G2| |done|done].
    + unfold below_wrap in *. lia.
    + unfold below_wrap in *. lia.
  - left. f_equal. by eapply oks_throw.
  - exfalso. clear -D2. remember UB as o eqn:Eo. induction D2; done.
Qed.
End props.

(** * Refutation and examples *)

(** The calls of the systems in a given order. *)
Fixpoint rec_play (U : universe) (i : nat) (bf : nat → nat) (sched : list nat) (c : sconf) : option sconf :=
  match sched with
  | [] => Some c
  | j :: sched =>
      match sc_tasks c !! j with
      | Some (STask (a :: todo) dn) =>
          match inst (made dn) a with
          | Some k => match record1 U i (bf j) k (sc_state c) with
                      | (cs', Ok g) => rec_play U i bf sched (SConf (<[j := STask todo (dn ++ [(k, g)])]> (sc_tasks c)) cs')
                      | _ => None
                      end
          | None => None
          end
      | _ => None
      end
  end.
Lemma rec_play_run U i bf sched : ∀ c c', rec_play U i bf sched c = Some c' → rtc (rec_step U i bf) c c'.
Proof.
  induction sched as [|j sched IH]; intros c c' E; [injection E as <-; constructor|]. cbn in E.
  destruct (sc_tasks c !! j) as [[[|a todo] dn]|] eqn:Hj; [done| |done]. destruct (inst (made dn) a) as [k|] eqn:Hi; [|done].
  destruct (record1 U i (bf j) k (sc_state c)) as [cs' [g|?|]] eqn:Hr; [|done|done]. eapply rtc_l; [by eapply RecStep|]. by apply IH.
Qed.
Definition rec_final (U : universe) (i : nat) (bf : nat → nat) (scripts : list (list scmd)) (sched : list nat) (cs : cstate) : sconf :=
  default (SConf [] cs) (rec_play U i bf sched (rec_start scripts cs)).
Lemma rec_final_run U i bf scripts sched cs : rec_play U i bf sched (rec_start scripts cs) ≠ None →
  rtc (rec_step U i bf) (rec_start scripts cs) (rec_final U i bf scripts sched cs).
Proof. intros H. apply (rec_play_run _ _ _ sched). unfold rec_final. by destruct (rec_play U i bf sched (rec_start scripts cs)). Qed.

(** Two entities, two threads. *)
Definition ops70 : list sop := [At 0 (OCreate [(1%N, Val 1)]); At 0 (OCreate [(1%N, Val 5)])].
Definition cs70 : cstate := CState (regs_of 3 ops70) [Buffer 1 [] true; Buffer 2 [] true].
Definition ss70 : list sreg := recs_of 3 ops70.
Definition s70 : sreg := default sreg_init (ss70 !! 0).
Lemma ready70 : ready U0 2 0 cs70 ss70 s70.
Proof.
  split; [apply (final_reach 3 ops70); by vm_compute|by vm_compute| |apply (bool_decide_unpack _); by vm_compute].
  intros [|[|b]] x Hx; cbn in Hx; simplify_eq; cbn; (split; [done|]; split; [done|]; split; [done|]; exists sreg_init; by vm_compute).
Qed.
Lemma ok70 c : (match c with SClone (RKnown h) | SSet (RKnown h) _ _ | SRemove (RKnown h) _ | SDestroy (RKnown h) => bool_decide (h ∈ sr_issued s70) | _ => true end) = true →
  (match c with SCreate args => bool_decide (NoDup args.*1 ∧ u_ent U0 ∉ args.*1) | SSet _ c _ | SRemove _ c => bool_decide (c ≠ u_ent U0) | _ => true end) = true →
  scmd_ok U0 (sr_issued s70) c.
Proof.
  intros H1 H2. split.
  - intros h Hu. destruct c as [args|x|x c v|x c|x]; cbn in Hu; try done; subst x; by apply bool_decide_eq_true in H1.
  - destruct c as [args|x|x c v|x c|x]; try done; by apply bool_decide_eq_true in H2.
Qed.
Ltac oks70 := repeat (apply Forall_cons; split); try apply Forall_nil_2; apply ok70; by vm_compute.
Definition swap01 (j : nat) : nat := match j with 0 => 1 | _ => 0 end.

(** Two systems set the same component of an entity: the value that stays is that of the system whose thread was
    registered last. *)
Theorem C70_conflict_refuted : ∃ scripts bf1 bf2 c1 c2 cs1 cs2 r1 r2, ready U0 2 0 cs70 ss70 s70 ∧
  Forall (Forall (scmd_ok U0 (sr_issued s70))) scripts ∧ (∀ j, j < length scripts → bf1 j < 2 ∧ bf2 j < 2) ∧
  recorded U0 0 bf1 scripts cs70 c1 cs1 (Ok tt) ∧ recorded U0 0 bf2 scripts cs70 c2 cs2 (Ok tt) ∧
  st_done <$> sc_tasks c1 = st_done <$> sc_tasks c2 ∧
  cs_regs cs1 !! 0 = Some r1 ∧ cs_regs cs2 !! 0 = Some r2 ∧
  (rg_get h0 1%N r1).2 = Ok (CVal (Val 8)) ∧ (rg_get h0 1%N r2).2 = Ok (CVal (Val 7)).
Proof.
  set (scripts := [[SSet (RKnown h0) 1%N (Val 7)]; [SSet (RKnown h0) 1%N (Val 8)]]).
  set (c1 := rec_final U0 0 id scripts [0; 1] cs70). set (c2 := rec_final U0 0 swap01 scripts [0; 1] cs70).
  exists scripts, id, swap01, c1, c2, (flush U0 0 (sc_state c1)).1, (flush U0 0 (sc_state c2)).1,
    (default rg_init (cs_regs (flush U0 0 (sc_state c1)).1 !! 0)), (default rg_init (cs_regs (flush U0 0 (sc_state c2)).1 !! 0)).
  split; [apply ready70|]. split.
  { oks70. }
  split; [intros [|[|j]]; cbn; lia|].
  assert (∀ bf, rec_play U0 0 bf [0; 1] (rec_start scripts cs70) ≠ None → Forall (λ t, st_todo t = []) (sc_tasks (rec_final U0 0 bf scripts [0; 1] cs70)) →
    (flush U0 0 (sc_state (rec_final U0 0 bf scripts [0; 1] cs70))).2 = Ok () →
    recorded U0 0 bf scripts cs70 (rec_final U0 0 bf scripts [0; 1] cs70) (flush U0 0 (sc_state (rec_final U0 0 bf scripts [0; 1] cs70))).1 (Ok ())) as H.
  { intros bf H1 H2 H3. split; [by apply rec_final_run|]. split; [exact H2|]. rewrite <- H3. by destruct (flush _ _ _). }
  split; [apply H; [by vm_compute|apply (bool_decide_unpack _); by vm_compute|by vm_compute]|].
  split; [apply H; [by vm_compute|apply (bool_decide_unpack _); by vm_compute|by vm_compute]|].
  split; [by vm_compute|].
  split; [by vm_compute|]. split; [by vm_compute|]. split; by vm_compute.
Qed.

(** One system creates an entity, sets a component of it and clones entity 0; the other one destroys entity 1, clones
    entity 0 and creates an entity.  In the second run the systems have exchanged their threads and the second one
    begins: the new entities get other handles. *)
Definition scripts70 : list (list scmd) :=
  [[SCreate [(1%N, Val 10)]; SSet (ROwn 0) 2%N (Val 11); SClone (RKnown h0)];
   [SDestroy (RKnown h1); SClone (RKnown h0); SCreate [(2%N, Val 20)]; SRemove (ROwn 0) 1%N]].
Definition run70 (bf : nat → nat) (sched : list nat) : sconf := rec_final U0 0 bf scripts70 sched cs70.
Definition end70 (bf : nat → nat) (sched : list nat) : cstate := (flush U0 0 (sc_state (run70 bf sched))).1.
Lemma rec70 bf sched : rec_play U0 0 bf sched (rec_start scripts70 cs70) ≠ None → (λ t, length (st_todo t)) <$> sc_tasks (run70 bf sched) = [0; 0] →
  (flush U0 0 (sc_state (run70 bf sched))).2 = Ok () → recorded U0 0 bf scripts70 cs70 (run70 bf sched) (end70 bf sched) (Ok ()).
Proof.
  intros H1 H2 H3. split; [by apply rec_final_run|]. split; [|unfold end70; rewrite <- H3; by destruct (flush _ _ _)].
  unfold rec_done. destruct (sc_tasks (run70 bf sched)) as [|t1 [|t2 [|]]]; try done. injection H2 as E1%nil_length_inv E2%nil_length_inv. by repeat constructor.
Qed.
Lemma ex_C70_ok : Forall (Forall (scmd_ok U0 (sr_issued s70))) scripts70. Proof. oks70. Qed.
Lemma ex_C70_ind : independent scripts70.
Proof.
  intros [|[|j]] [|[|j']] l l' c c' h N Hl Hl' Hc Hc' Hw; cbn in Hl, Hl'; simplify_eq.
  - repeat (apply elem_of_cons in Hc as [->|Hc]; [by (cbn in Hw; try congruence)|]). by apply elem_of_nil in Hc.
  - apply elem_of_cons in Hc as [->|Hc].
    + cbn in Hw. injection Hw as <-. intros Hu. repeat (apply elem_of_cons in Hc' as [->|Hc']; [by (cbn in Hu; try congruence)|]). by apply elem_of_nil in Hc'.
    + repeat (apply elem_of_cons in Hc as [->|Hc]; [by (cbn in Hw; try congruence)|]). by apply elem_of_nil in Hc.
Qed.
Definition sched70a : list nat := [0; 0; 0; 1; 1; 1; 1].
Definition sched70b : list nat := [1; 1; 0; 1; 0; 1; 0].
Lemma ex_C70_run1 : recorded U0 0 id scripts70 cs70 (run70 id sched70a) (end70 id sched70a) (Ok ()).
Proof. apply rec70; by vm_compute. Qed.
Lemma ex_C70_run2 : recorded U0 0 swap01 scripts70 cs70 (run70 swap01 sched70b) (end70 swap01 sched70b) (Ok ()).
Proof. apply rec70; by vm_compute. Qed.
Lemma bw70 : below_wrap (2 * (2 + 5 * S (sum_list (length <$> scripts70)))). Proof. by vm_compute. Qed.
Lemma bf70 : ∀ j, j < length scripts70 → id j < length (cs_bufs cs70) ∧ swap01 j < length (cs_bufs cs70).
Proof. intros [|[|j]]; cbn; lia. Qed.
Example ex_C70 := C70_independent_partial U0 U0_wf 2 0 cs70 ss70 s70 scripts70 id swap01 _ _ _ _ (Ok ()) ready70 bw70 ex_C70_ok ex_C70_ind bf70 ex_C70_run1 ex_C70_run2.
Definition h3 : handle := Handle 3 0.
Definition h4 : handle := Handle 4 0.
Definition h5 : handle := Handle 5 0.
Example ex_C70_handles : (made ∘ st_done <$> sc_tasks (run70 id sched70a), made ∘ st_done <$> sc_tasks (run70 swap01 sched70b)) =
  ([[h2; h3]; [h4; h5]], [[h3; h5]; [h2; h4]]).
Proof. by vm_compute. Qed.
Definition obs70 (cs : cstate) (h : handle) : list (outcome cell) := let r := default rg_init (cs_regs cs !! 0) in [(rg_get h 1%N r).2; (rg_get h 2%N r).2].
Example ex_C70_seen : (obs70 (end70 id sched70a) <$> [h0; h2; h3; h4; h5], rg_size <$> cs_regs (end70 id sched70a) !! 0) =
  (obs70 (end70 swap01 sched70b) <$> [h0; h3; h5; h2; h4], rg_size <$> cs_regs (end70 swap01 sched70b) !! 0) ∧
  obs70 (end70 id sched70a) h2 = [Ok (CVal (Val 10)); Ok (CVal (Val 11))] ∧ rg_size <$> cs_regs (end70 id sched70a) !! 0 = Some 5%N.
Proof. by vm_compute. Qed.

Print Assumptions C70_independent_partial.
Print Assumptions C70_conflict_refuted.
