(** Recording does not touch what views see, and views do not touch what recording uses: a run of a batch is a run on
    the views and a run of recorded calls. *)
From Verif Require Import Base Bits Layout HandlePool HandleSpec SparseMap HashTable Bitset ComponentSet Chunk Archetype Registry View
  RegSpec Command CommandSpec SysCommand ParallelFor ParEach SystemRun SysFrame.

(** * Steps on views and the handle pool *)
Definition pool_free {X} (m : M registry X) : Prop := ∀ r p, m (rg_set_pool r p) = (rg_set_pool (m r).1 p, (m r).2).

Lemma pf_ret {X} (x : X) : pool_free (ret x). Proof. done. Qed.
Lemma pf_bind {X Y} (m : M registry X) (k : X → M registry Y) : pool_free m → (∀ x, pool_free (k x)) → pool_free (bind m k).
Proof.
  intros Hm Hk r p. unfold bind. rewrite Hm. destruct (m r) as [r1 [x|e|]]; cbn [fst snd]; [|done|done]. apply Hk.
Qed.
Lemma pf_arch {X} p (m : M archetype X) : pool_free (on_arch p m).
Proof.
  intros r q. unfold on_arch. destruct p as [a|]; [|done]. cbn [rg_set_pool rg_heap]. destruct (rg_heap r !! a) as [ar|]; [|done].
  by destruct (m ar).
Qed.
Lemma pf_table {X} (k : htab bitset (option nat) → M registry X) : (∀ t, pool_free (k t)) → pool_free (let! r := get in k (rg_table r)).
Proof. intros Hk r p. unfold bind, get. cbn [rg_set_pool rg_table]. apply (Hk (rg_table r) r p). Qed.
Lemma pf_keeps {X} (m : M registry X) r r' o : pool_free m → m r = (r', o) → rg_pool r' = rg_pool r.
Proof.
  intros Hm E. specialize (Hm r (rg_pool r)). assert (rg_set_pool r (rg_pool r) = r) as Er by (by destruct r). rewrite Er, E in Hm. cbn in Hm.
  injection Hm as Hm. by rewrite Hm.
Qed.

Section frame.
Context (U : universe).

Lemma pf_vs_chunks p bl rq js : pool_free (vs_chunks p bl rq js).
Proof.
  induction js as [|j js IH]; [apply pf_ret|]. cbn [vs_chunks]. apply pf_bind; [apply pf_arch|]. intros [x|]; [apply pf_ret|done].
Qed.
Lemma pf_vs_archs rq l : pool_free (vs_archs U rq l).
Proof.
  induction l as [|e l IH]; [apply pf_ret|]. cbn [vs_archs]. apply pf_bind; [apply pf_arch|]. intros ar. apply pf_bind.
  - destruct (forallb _ _); [apply pf_vs_chunks|apply pf_ret].
  - intros [x|]; [apply pf_ret|done].
Qed.
Lemma pf_single rq : pool_free (rg_single U rq).
Proof. apply (pf_table (λ t, vs_archs U rq (ht_iter t))). intros t. apply pf_vs_archs. Qed.
Lemma pf_pe_chunks rq l : pool_free (pe_chunks U rq l).
Proof.
  induction l as [|e l IH]; [apply pf_ret|]. cbn [pe_chunks]. apply pf_bind; [apply pf_arch|]. intros ar. apply pf_bind; [done|]. intros cs. apply pf_ret.
Qed.
Lemma pf_pe_step rq f t m : pe_step U rq f t = Some m → pool_free m.
Proof.
  unfold pe_step. destruct (pt_cur t) as [[[c ps] e]|].
  - intros [= <-]. destruct (it_eqb ps e); [apply pf_ret|]. apply pf_bind; [apply pf_arch|]. intros log. apply pf_ret.
  - destruct (pt_todo t) as [|c todo]; [done|]. intros [= <-]. apply pf_bind; [apply pf_arch|]. intros be. apply pf_ret.
Qed.
Lemma pf_pe_start rq nw : pool_free (pe_start U rq nw).
Proof.
  apply (pf_table (λ t, let! cs := pe_chunks U rq (ht_iter t) in ret (match pf_batches nw (length cs) with
    None => [PTask cs None] | Some bs => (λ b, PTask (subrange cs b) None) <$> bs end))). intros t.
  apply pf_bind; [apply pf_pe_chunks|]. intros cs. apply pf_ret.
Qed.
Lemma pf_th_step a x m : th_step U a x = Some m → pool_free m.
Proof.
  destruct x as [[|rq f k|rq k|nw rq f k|c k] out|rq f k t log out|rq f k ts out]; cbn [th_step]; [done|intros [= <-]..| |].
  - apply (pf_table (λ t, let! cs := pe_chunks U rq (ht_iter t) in ret (TIn rq f k (PTask cs None) [] out))). intros t.
    apply pf_bind; [apply pf_pe_chunks|]. intros cs. apply pf_ret.
  - apply pf_bind; [apply pf_single|]. intros x. apply pf_ret.
  - apply pf_bind; [apply pf_pe_start|]. intros x. apply pf_ret.
  - apply pf_ret.
  - destruct (pe_step U rq (f log) t) as [m'|] eqn:E; intros [= <-]; [|apply pf_ret]. apply pf_bind; [by eapply pf_pe_step|]. intros x. apply pf_ret.
  - destruct (ts !! a) as [t|]; cbn [mbind option_bind].
    2:{ destruct (forallb _ ts); [|done]. intros [= <-]. apply pf_ret. }
    destruct (pe_step U rq f t) as [m'|] eqn:E; [intros [= <-]|destruct (forallb _ ts); [intros [= <-]; apply pf_ret|done]].
    apply pf_bind; [by eapply pf_pe_step|]. intros x. apply pf_ret.
Qed.

(** * Recording and the tables *)
Context (i : nat).
(** Registry [i] gets the tables of [X] and keeps its handle pool. *)
Definition swap (X : registry) (cs : cstate) : cstate := CState (alter (λ r, rg_set_pool X (rg_pool r)) i (cs_regs cs)) (cs_bufs cs).
Definition stg_ok (cs : cstate) : Prop := ∀ (b : nat) x, cs_bufs cs !! b = Some x → cb_staging x ≠ i.
Definition keeps {A} (P : A → Prop) (m : M cstate A) : Prop := ∀ X cs cs' o, stg_ok cs → m cs = (cs', o) →
  m (swap X cs) = (swap X cs', o) ∧ stg_ok cs' ∧ length (cs_bufs cs') = length (cs_bufs cs) ∧ (∀ a, o = Ok a → P a) ∧
  ∀ r, cs_regs cs !! i = Some r → ∃ p, cs_regs cs' !! i = Some (rg_set_pool r p).

Lemma k_ret {A} (P : A → Prop) a : P a → keeps P (ret a).
Proof.
  intros HP X cs cs' o Hs [= <- <-]. split; [done|]. split; [done|]. split; [done|]. split; [by intros ? [= <-]|].
  intros r Hr. exists (rg_pool r). by destruct r.
Qed.
Lemma k_bind {A B} (P : A → Prop) (Q : B → Prop) m k : keeps P m → (∀ a, P a → keeps Q (k a)) → keeps Q (bind m k).
Proof.
  intros Hm Hk X cs cs' o Hs E. unfold bind in *. destruct (m cs) as [cs1 o1] eqn:E1. destruct (Hm X cs cs1 o1 Hs E1) as (E2 & Hs1 & Hl & HP & Hr).
  rewrite E2. destruct o1 as [a|e|].
  - destruct (Hk a (HP a eq_refl) X cs1 cs' o Hs1 E) as (E3 & Hs2 & Hl2 & HQ & Hr2). split; [done|]. split; [done|]. split; [congruence|]. split; [done|].
    intros r Hi. destruct (Hr r Hi) as [p Hp]. destruct (Hr2 _ Hp) as [p' Hp']. by exists p'.
  - injection E as <- <-. done.
  - injection E as <- <-. done.
Qed.
Lemma k_reserve : keeps (λ _, True) (on_regs_of (call_handle U (At i OReserve))).
Proof.
  intros X cs cs' o Hs. unfold on_regs_of, call_handle, call, bind. cbn [run_sop]. unfold on_reg, swap. cbn [cs_regs cs_bufs]. rewrite list_lookup_alter.
  destruct (cs_regs cs !! i) as [r|] eqn:Hr; cbn [fmap option_fmap option_map].
  - cbn [run_rop]. unfold mapM, rg_reserve. cbn [rg_set_pool rg_pool].
    destruct (pool_reserve (rg_pool r)) as [p o1]. pose proof (lookup_lt_Some _ _ _ Hr) as Hlt.
    set (o2 := match o1 with Ok h => Ok h | Throw e => Throw e | UB => UB end : outcome handle).
    assert (∀ rs : list registry, (match omap_out RHandle o1 with Ok x => match x with RHandle h => ret h | _ => ub end rs | Throw e => (rs, Throw e) | UB => (rs, UB) end) = (rs, o2)) as E.
    { intros rs. by destruct o1. }
    rewrite !E. intros [= <- <-]. cbn [cs_regs cs_bufs]. split.
    { f_equal. f_equal. apply list_eq. intros a. destruct (decide (i = a)) as [<-|N].
      - rewrite list_lookup_insert by (by rewrite alter_length). rewrite list_lookup_alter, list_lookup_insert by done. done.
      - rewrite list_lookup_insert_ne, !list_lookup_alter_ne, list_lookup_insert_ne by done. done. }
    split; [done|]. split; [done|]. split; [done|]. intros r' [= <-]. exists p. by apply list_lookup_insert.
  - intros [= <- <-]. split; [done|]. split; [done|]. split; [done|]. split; done.
Qed.
Lemma k_other j op : j ≠ i → keeps (λ _, True) (on_regs_of (call_handle U (At j op))).
Proof.
  intros Hj X cs cs' o Hs. unfold on_regs_of, call_handle, call, bind. cbn [run_sop]. unfold on_reg, swap. cbn [cs_regs cs_bufs].
  rewrite list_lookup_alter_ne by done. destruct (cs_regs cs !! j) as [r|] eqn:Hr.
  - destruct (run_rop U op r) as [r1 o1]. pose proof (lookup_lt_Some _ _ _ Hr) as Hlt.
    set (o2 := match o1 with Ok (RHandle h) => Ok h | Ok _ => UB | Throw e => Throw e | UB => UB end : outcome handle).
    assert (∀ rs : list registry, (match o1 with Ok x => match x with RHandle h => ret h | _ => ub end rs | Throw e => (rs, Throw e) | UB => (rs, UB) end) = (rs, o2)) as E.
    { intros rs. by destruct o1 as [[]| |]. }
    rewrite !E. intros [= <- <-]. cbn [cs_regs cs_bufs]. split.
    { f_equal. f_equal. symmetry. apply list_eq. intros a. destruct (decide (j = a)) as [<-|N].
      - rewrite list_lookup_alter_ne by done. rewrite !list_lookup_insert; [done|by rewrite alter_length|done].
      - destruct (decide (i = a)) as [<-|N'].
        + rewrite list_lookup_alter, !list_lookup_insert_ne, list_lookup_alter by done. done.
        + rewrite list_lookup_alter_ne, !list_lookup_insert_ne, list_lookup_alter_ne by done. done. }
    split; [done|]. split; [done|]. split; [done|]. intros r' Hi. exists (rg_pool r'). rewrite list_lookup_insert_ne by done. by destruct r'.
  - intros [= <- <-]. split; [done|]. split; [done|]. split; [done|]. split; [done|]. intros r' Hi. exists (rg_pool r'). by destruct r'.
Qed.
Lemma k_stage b : keeps (λ j, j ≠ i) (cb_stage b).
Proof.
  intros X cs cs' o Hs. unfold cb_stage, cb_at. cbn [swap cs_bufs]. intros [= <- <-]. split; [done|]. split; [done|]. split; [done|]. split.
  - intros j. destruct (cs_bufs cs !! b) as [x|] eqn:Hb; [|done]. destruct (cb_live x); [|done]. intros [= <-]. by eapply Hs.
  - intros r Hi. exists (rg_pool r). by destruct r.
Qed.
Lemma k_push b c : keeps (λ _, True) (cb_push b c).
Proof.
  intros X cs cs' o Hs. unfold cb_push, cb_at. cbn [swap cs_bufs cs_regs].
  assert (∀ r, cs_regs cs !! i = Some r → ∃ p, cs_regs cs !! i = Some (rg_set_pool r p)) as Hr.
  { intros r Hi. exists (rg_pool r). by destruct r. }
  destruct (cs_bufs cs !! b) as [x|] eqn:Hb; [destruct (cb_live x) eqn:El|]; intros [= <- <-]; (split; [done|]).
  - split; [|split; [cbn; by rewrite insert_length|done]]. intros b' y. cbn. destruct (decide (b = b')) as [<-|N].
    + rewrite list_lookup_insert by (by eapply lookup_lt_Some). intros [= <-]. cbn. by eapply Hs.
    + rewrite list_lookup_insert_ne by done. apply Hs.
  - done.
  - done.
Qed.
Lemma k_record b k : keeps (λ _, True) (record1 U i b k).
Proof.
  destruct k as [args|h|h c v|h c|h]; cbn [record1].
  - eapply k_bind; [apply k_reserve|]. intros g _. eapply k_bind; [apply k_stage|]. intros stg Hs.
    eapply k_bind; [by apply k_other|]. intros st _. eapply k_bind; [apply k_push|]. intros ? _. by apply k_ret.
  - eapply k_bind; [apply k_reserve|]. intros g _. eapply k_bind; [apply k_push|]. intros ? _. by apply k_ret.
  - eapply k_bind; [|intros ? _; by apply k_ret]. eapply k_bind; [apply k_stage|]. intros stg Hs.
    eapply k_bind; [by apply k_other|]. intros st _. apply k_push.
  - eapply k_bind; [apply k_push|]. intros ? _. by apply k_ret.
  - eapply k_bind; [apply k_push|]. intros ? _. by apply k_ret.
Qed.

(** * A batch *)
Lemma step_out a x m r r' x' : th_step U a x = Some m → at_cmd x = false → m r = (r', Ok x') → out_of x' = out_of x.
Proof.
  destruct x as [[|rq f k|rq k|nw rq f k|c k] out|rq f k t log out|rq f k ts out]; cbn [th_step at_cmd]; [done|intros [= <-] _..|done| |].
  - unfold bind, get. destruct (pe_chunks _ _ _ r) as [? [?|?|]]; [|done|done]. by intros [= _ <-].
  - unfold bind. destruct (rg_single U rq r) as [? [?|?|]]; [|done|done]. by intros [= _ <-].
  - unfold bind. destruct (pe_start U rq nw r) as [? [?|?|]]; [|done|done]. by intros [= _ <-].
  - destruct (pe_step U rq (f log) t) as [m'|]; intros [= <-] _; [|by intros [= _ <-]].
    unfold bind. destruct (m' r) as [? [?|?|]]; [|done|done]. by intros [= _ <-].
  - destruct (ts !! a ≫= pe_step U rq f) as [m'|]; [intros [= <-] _|destruct (forallb _ ts); [intros [= <-] _; by intros [= _ <-]|done]].
    unfold bind. destruct (m' r) as [? [?|?|]]; [|done|done]. by intros [= _ <-].
Qed.
Lemma set_pool_id r : rg_set_pool r (rg_pool r) = r. Proof. by destruct r. Qed.

Notation outs c := ((λ t, out_of (jt_th t)) <$> jc_tasks c).
Notation todo scrs c := (zip_with (λ s t, STask s (jt_done t)) scrs (jc_tasks c)).

Lemma batch_split bf n c c' r : nsteps (j_step U i bf) n c c' → stg_ok (jc_state c) → cs_regs (jc_state c) !! i = Some r →
  ∃ r', cs_regs (jc_state c') !! i = Some r' ∧ stg_ok (jc_state c') ∧ length (cs_bufs (jc_state c')) = length (cs_bufs (jc_state c)) ∧
  length (jc_tasks c') = length (jc_tasks c) ∧
  (∀ p, nsteps (b_run U) n (BConf (jt_th <$> jc_tasks c) (rg_set_pool r p)) (BConf (jt_th <$> jc_tasks c') (rg_set_pool r' p))) ∧
  ∃ scrs, length scrs = length (jc_tasks c) ∧ outs c' = zip_with app (outs c) scrs ∧
    ∀ X, rtc (rec_step U i bf) (SConf (todo scrs c) (swap X (jc_state c))) (SConf ((λ t, STask [] (jt_done t)) <$> jc_tasks c') (swap X (jc_state c'))).
Proof.
  intros Hr. revert r. induction Hr as [c|n c c1 c' Hs _ IH]; intros r Hok Hi.
  - exists r. split; [done|]. split; [done|]. split; [done|]. split; [done|]. split; [intros p; constructor|].
    exists (replicate (length (jc_tasks c)) []). split; [by rewrite replicate_length|]. split.
    + induction (jc_tasks c) as [|t l IH]; [done|]. cbn. rewrite app_nil_r. f_equal. exact IH.
    + intros X. assert (todo (replicate (length (jc_tasks c)) []) c = (λ t, STask [] (jt_done t)) <$> jc_tasks c) as ->; [|done].
      induction (jc_tasks c) as [|t l IH]; [done|]. cbn. f_equal. exact IH.
  - inversion Hs as [? j ch x dn m r0 r1 x' Hj Hc Hm Hi' E|? j a p out dn k cs' g Hj Hin E]; subst.
    + rewrite Hi in Hi'. injection Hi' as <-. pose proof (pf_th_step _ _ _ Hm) as Hpf. pose proof (pf_keeps _ _ _ _ Hpf E) as Hp.
      pose proof (lookup_lt_Some _ _ _ Hi) as Hlt. pose proof (lookup_lt_Some _ _ _ Hj) as Hltj.
      destruct (IH r1) as (r' & Hi' & Hok' & Hb & Hl & Hv & scrs & Hls & Ho & Hrec).
      { exact Hok. }
      { cbn. by apply list_lookup_insert. }
      cbn [jc_tasks jc_state cs_bufs] in *. rewrite insert_length in Hl, Hls. exists r'. split; [done|]. split; [done|]. split; [done|]. split; [done|]. split.
      { intros p. eapply nsteps_l; [|apply Hv]. rewrite list_fmap_insert. eapply (BRun U (BConf _ _)); [|exact Hm|].
        - cbn. by rewrite list_lookup_fmap, Hj.
        - cbn. rewrite (Hpf r p), E. done. }
      exists scrs. split; [done|]. split.
      { rewrite Ho, list_fmap_insert. cbn [jt_th]. rewrite (step_out _ _ _ _ _ _ Hm Hc E). f_equal. apply list_insert_id. by rewrite list_lookup_fmap, Hj. }
      intros X. specialize (Hrec X). assert (todo scrs (JConf (<[j:=JTask x' dn]> (jc_tasks c)) (jc_state c)) = todo scrs c) as Et.
      { apply list_eq. intros a. rewrite !lookup_zip_with. cbn [jc_tasks]. destruct (decide (j = a)) as [<-|N].
        - rewrite list_lookup_insert, Hj by done. done.
        - by rewrite list_lookup_insert_ne. }
      cbn [jc_tasks] in Et. rewrite Et in Hrec.
      assert (swap X (CState (<[i:=r1]> (cs_regs (jc_state c))) (cs_bufs (jc_state c))) = swap X (jc_state c)) as Esw.
      { unfold swap. cbn [cs_regs cs_bufs]. f_equal. apply list_eq. intros a. destruct (decide (i = a)) as [<-|N].
        - rewrite !list_lookup_alter, list_lookup_insert, Hi by done. cbn. by rewrite Hp.
        - by rewrite !list_lookup_alter_ne, list_lookup_insert_ne by done. }
      by rewrite Esw in Hrec.
    + pose proof (lookup_lt_Some _ _ _ Hj) as Hltj.
      destruct (k_record _ _ rg_init _ _ _ Hok E) as (_ & Hok1 & Hl1 & _ & Hr1). destruct (Hr1 _ Hi) as [q Hq].
      destruct (IH (rg_set_pool r q)) as (r' & Hi' & Hok' & Hb & Hl & Hv & scrs & Hls & Ho & Hrec); [done|done|].
      cbn [jc_tasks jc_state] in *. rewrite insert_length in Hl, Hls. exists r'. split; [done|]. split; [done|]. split; [congruence|]. split; [done|]. split.
      { intros p'. eapply nsteps_l; [|apply (Hv p')]. rewrite list_fmap_insert. cbn [jt_th].
        pose proof (BRun U (BConf (jt_th <$> jc_tasks c) (rg_set_pool r p')) j 0 (TAt (PCmd a p) out) (ret (TAt p (out ++ [a]))) (rg_set_pool r p') (TAt p (out ++ [a]))) as Hb1.
        cbn [bc_tasks bc_reg] in Hb1. apply Hb1; [|done|done]. by rewrite list_lookup_fmap, Hj. }
      destruct (lookup_lt_is_Some_2 scrs j) as [sc Hsc]; [lia|].
      exists (<[j := a :: sc]> scrs). split; [by rewrite insert_length|]. split.
      { rewrite Ho. apply list_eq. intros b. rewrite !lookup_zip_with, !list_lookup_fmap. destruct (decide (j = b)) as [<-|N].
        - rewrite !list_lookup_insert, Hj, Hsc by lia. cbn. by rewrite <- app_assoc.
        - by rewrite !list_lookup_insert_ne. }
      intros X. eapply rtc_l; [|apply Hrec]. destruct (k_record _ _ X _ _ _ Hok E) as (E' & _).
      assert (zip_with (λ s t, STask s (jt_done t)) scrs (<[j:=JTask (TAt p (out ++ [a])) (dn ++ [(k, g)])]> (jc_tasks c)) =
        <[j := STask sc (dn ++ [(k, g)])]> (todo (<[j:=a :: sc]> scrs) c)) as ->.
      { apply list_eq. intros b. destruct (decide (j = b)) as [<-|N].
        - rewrite list_lookup_insert by (rewrite zip_with_length, insert_length; lia). rewrite lookup_zip_with, list_lookup_insert, Hsc by lia. done.
        - rewrite list_lookup_insert_ne by done. by rewrite !lookup_zip_with, !list_lookup_insert_ne by done. }
      eapply (RecStep U i bf (SConf _ _)); [|exact Hin|exact E']. cbn. rewrite lookup_zip_with, list_lookup_insert, Hj by lia. done.
Qed.

(** * Batches *)
Lemma rec_embed bf bf' pre post : ∀ a b : sconf, rtc (rec_step U i bf) a b →
  (∀ j, j < length (sc_tasks a) → bf' (length pre + j) = bf j) →
  rtc (rec_step U i bf') (SConf (pre ++ sc_tasks a ++ post) (sc_state a)) (SConf (pre ++ sc_tasks b ++ post) (sc_state b)).
Proof.
  induction 1 as [a|a a1 b Hs _ IH]; intros Hbf; [done|]. inversion Hs as [? j x td dn k cs' g Hj Hin E]; subst. cbn [sc_tasks sc_state] in *.
  pose proof (lookup_lt_Some _ _ _ Hj) as Hlt. eapply rtc_l; [|apply IH; by rewrite insert_length].
  assert (pre ++ <[j:=STask td (dn ++ [(k, g)])]> (sc_tasks a) ++ post = <[length pre + j := STask td (dn ++ [(k, g)])]> (pre ++ sc_tasks a ++ post)) as ->.
  { rewrite insert_app_r. f_equal. by rewrite insert_app_l. }
  eapply (RecStep U i bf' (SConf _ _)); [|exact Hin|by rewrite Hbf]. cbn. rewrite lookup_app_r by lia.
  replace (length pre + j - length pre) with j by lia. by rewrite lookup_app_l.
Qed.

Lemma batches_split pss : ∀ cs ts cs' r, batches_run U i pss cs ts cs' → stg_ok cs → cs_regs cs !! i = Some r →
  ∃ scrs r' bf, cs_regs cs' !! i = Some r' ∧ length (cs_bufs cs') = length (cs_bufs cs) ∧
  (λ t, out_of (jt_th t)) <$> ts = scrs ∧ length scrs = length (concat pss) ∧
  (∀ j, j < length scrs → bf j < length (cs_bufs cs)) ∧ (∀ p, stage_run U pss (rg_set_pool r p) scrs (rg_set_pool r' p)) ∧
  ∀ X, rtc (rec_step U i bf) (SConf ((λ l, STask l []) <$> scrs) (swap X cs)) (SConf ((λ t, STask [] (jt_done t)) <$> ts) (swap X cs')).
Proof.
  induction pss as [|ps pss IH]; intros cs ts cs' r Hrun Hok Hi; inversion Hrun as [|bf ? ? ? c ts1 ? Hbf Hc Hd Hrest]; subst.
  - exists [], r, id. split; [done|]. split; [done|]. split; [done|]. split; [done|]. split; [cbn; lia|]. split; [intros p; constructor|]. done.
  - apply rtc_nsteps in Hc as [n Hc]. destruct (batch_split bf n (j_start ps cs) c r Hc Hok Hi) as (r1 & Hi1 & Hok1 & Hb1 & Hl1 & Hv1 & sc1 & Hls1 & Ho1 & Hrec1).
    cbn [j_start jc_tasks jc_state] in *. rewrite fmap_length in Hl1, Hls1.
    destruct (IH _ _ _ _ Hrest Hok1 Hi1) as (sc2 & r' & bf2 & Hi' & Hb2 & Hlt2 & Hls2 & Hbf2 & Hv2 & Hrec2).
    assert ((λ t, out_of (jt_th t)) <$> jc_tasks c = sc1) as Eo.
    { rewrite Ho1. clear -Hls1. revert sc1 Hls1. induction ps as [|p ps IH]; intros [|x sc1] E; try done. cbn. f_equal. apply IH. cbn in E. lia. }
    assert (zip_with (λ s t, STask s (jt_done t)) sc1 ((λ p, JTask (TAt p []) []) <$> ps) = (λ l, STask l []) <$> sc1) as Et.
    { clear -Hls1. revert ps Hls1. induction sc1 as [|x sc1 IH]; intros [|p ps] E; try done. cbn. f_equal. apply IH. cbn in E. lia. }
    rewrite Et in Hrec1. set (bf' := λ j, if decide (j < length ps) then bf j else bf2 (j - length ps)).
    exists (sc1 ++ sc2), r', bf'. split; [done|]. split; [congruence|]. split; [rewrite fmap_app; congruence|]. split; [rewrite concat_cons, !app_length; congruence|]. split; [|split].
    + intros j Hj. rewrite app_length in Hj. unfold bf'. case_decide; [by apply Hbf|]. rewrite <- Hb1. apply Hbf2. lia.
    + intros p. specialize (Hv1 p). specialize (Hv2 p).
      assert (out_of <$> (jt_th <$> jc_tasks c) = sc1) as Eo' by (rewrite <- list_fmap_compose; exact Eo).
      pose proof (SRcons U ps pss (rg_set_pool r p) (BConf (jt_th <$> jc_tasks c) (rg_set_pool r1 p)) sc2 (rg_set_pool r' p)) as Hst.
      cbn [bc_tasks bc_reg] in Hst. rewrite Eo' in Hst. apply Hst; [|by apply Forall_fmap|done].
      apply rtc_nsteps. exists n. unfold b_start. rewrite <- list_fmap_compose in Hv1. exact Hv1.
    + intros X. specialize (Hrec1 X). specialize (Hrec2 X). rewrite !fmap_app.
      apply (rec_embed _ bf' [] ((λ l, STask l []) <$> sc2)) in Hrec1.
      2:{ intros j. cbn [sc_tasks length Nat.add]. rewrite fmap_length. intros Hj. unfold bf'. rewrite decide_True by lia. done. }
      apply (rec_embed _ bf' ((λ t, STask [] (jt_done t)) <$> jc_tasks c) []) in Hrec2.
      2:{ intros j _. rewrite fmap_length. unfold bf'. rewrite decide_False by lia. f_equal. lia. }
      cbn [sc_tasks sc_state app] in Hrec1, Hrec2. rewrite !app_nil_r in Hrec2. by etransitivity.
Qed.
End frame.
