(** C27, C28, C29, C52, C53: command buffers. *)
From Verif Require Import Base Bits Layout HandlePool HandleSpec HandlePoolProofs SparseMap SparseMapProofs
  HashTable HashTableProofs HashTableMap Bitset BitsetProofs ComponentSet ComponentSetProofs
  Chunk ChunkProofs Archetype ArchetypeProofs Registry RegistryStore RegistryProofs View ViewProofs RegSpec RegSpecProofs
  RegObs RegRun PropRegistry PropView PropStorage Command CommandSpec CommandProofs.

Section props.
Context (U : universe).
Hypothesis HU : u_wf U.

(** Any number of threads record calls for registry [i], in any interleaving with flushes and with calls that throw:
    recording changes no entity and hands out new handles; a flush applies the queued calls, thread by thread, in
    the order in which each thread recorded them, up to the first that throws; the rest stays queued. *)
Theorem C27_history n i cs ss s ops cs' os : ready U n i cs ss s → below_wrap (2 * (n + 5 * length ops)) →
  run_cops U i ops cs = (cs', os) → all_permitted U (length (cs_bufs cs)) ops →
  (∃ a', cnexts U (aprog_of cs ss s) ops os a' ∧ shows U (n + 5 * length ops) i cs' a') ∨
  (last os = Some UB ∧ stuck U (cs_regs cs')).
Proof. by apply history_spec. Qed.

(** What [direct] says of a call is what the registry does when the operation is called directly. *)
Definition op_of (k : crec) : rop :=
  match k with
  | KCreate args => OCreate args
  | KClone h => OClone h
  | KSet h c v => OSet h c (CtorOk v)
  | KRemove h c => ORemove h c
  | KDestroy h => ODestroy h
  end.
Theorem C27_direct n r s k r' o : reached U n r s → below_wrap (2 * S n) → permitted U s (op_of k) →
  run_rop U (op_of k) r = (r', o) → o ≠ UB → (∀ args, k = KCreate args → ∃ h, o = Ok (RHandle h)) →
  ∃ s' g, reached U (S n) r' s' ∧ direct U (sr_world s) k g (omap_out (λ _, tt) o) (sr_world s') ∧
    (makes k = true → ∀ h, o = Ok (RHandle h) → g = h ∧ g ∉ sr_issued s).
Proof.
  intros Hr Hbw Hp E Ho Hc. destruct (reached_step U HU _ _ _ _ _ _ Hr Hbw Hp E) as [(s' & Hn & Hr' & _)|[-> _]]; [|done].
  assert (∀ h, missing s h o → absent (omap_out (λ _, ()) o)) as Hm.
  { intros h (e & -> & _ & _ & He). cbn. destruct He as [->| ->]; [by left|by right]. }
  destruct k as [args|h|h c v|h c|h]; cbn in Hn.
  - destruct Hn as [(h & Hh & -> & ->)|(-> & _)]; [|by destruct (Hc _ eq_refl)]. exists (with_world (issue s h) (<[h := list_to_map args]> (sr_world s))), h.
    split; [done|]. split; [done|]. intros _ ? [= ->]. done.
  - destruct (sr_world s !! h) as [m|] eqn:Hw.
    + destruct Hn as [(Hcp & g & Hg & -> & ->)|(Hcp & -> & ->)].
      * eexists _, g. split; [done|]. split; [cbn; rewrite Hw; by left|]. intros _ ? [= ->]. done.
      * eexists _, h. split; [done|]. split; [cbn; rewrite Hw; by right|]. done.
    + destruct Hn as [Hms ->]. exists s, h. split; [done|]. split; [cbn; rewrite Hw; split; [by eapply Hm|done]|].
      intros _. destruct Hms as (e & -> & _). done.
  - exists s', h. split; [done|]. split; [|done]. cbn. destruct (sr_world s !! h) as [m|] eqn:Hw.
    + destruct Hn as [[-> ->]|(-> & H1 & H2 & ->)]; [by left|by right].
    + destruct Hn as [Hms ->]. split; [by eapply Hm|done].
  - exists s', h. split; [done|]. split; [|done]. cbn. destruct (sr_world s !! h) as [m|] eqn:Hw.
    + destruct Hn as [[-> ->]|(-> & H1 & H2 & ->)]; [by left|by right].
    + destruct Hn as [Hms ->]. split; [by eapply Hm|done].
  - exists s', h. split; [done|]. split; [|done]. cbn. destruct (sr_world s !! h) as [m|] eqn:Hw.
    + destruct Hn as [-> ->]. done.
    + destruct Hn as [Hms ->]. split; [by eapply Hm|done].
Qed.

Lemma cnexts_len a ops os a' : cnexts U a ops os a' → length os = length ops.
Proof. induction 1; cbn; congruence. Qed.
Lemma cnexts_app a ops1 ops2 os a' : cnexts U a (ops1 ++ ops2) os a' →
  ∃ os1 os2 a1, os = os1 ++ os2 ∧ cnexts U a ops1 os1 a1 ∧ cnexts U a1 ops2 os2 a'.
Proof.
  revert a os. induction ops1 as [|op ops1 IH]; intros a os H; cbn in H.
  - exists [], os, a. split; [done|]. split; [constructor|done].
  - inversion H as [|? ? o a1 ? os1 ? H1 H2]; subst. destruct (IH _ _ H2) as (osa & osb & a2 & -> & H3 & H4). exists (o :: osa), osb, a2.
    split; [done|]. split; [by econstructor|done].
Qed.

Lemma cnexts_recs b ks : ∀ a gs a', length ks = length gs → cnexts U a (CRec b <$> ks) (Ok ∘ Some <$> gs) a' →
  ap_world a' = ap_world a ∧ ap_queues a' = alter (.++ zip ks gs) b (ap_queues a) ∧
  NoDup (made (zip ks gs)) ∧ ∀ g, g ∈ made (zip ks gs) → g ∉ ap_known a.
Proof.
  induction ks as [|k ks IH]; intros a gs a' Hl H; destruct gs as [|g gs]; try done.
  - inversion H; subst. split; [done|]. split; [|by split; [constructor|intros ? ?%elem_of_nil]]. cbn. symmetry. apply list_alter_id. intros. by rewrite app_nil_r.
  - cbn in H. inversion H as [|? ? o a1 ? os1 ? H1 H2]; subst. destruct H1 as [(g' & Hg & Hf & ->)|(? & ? & _)]; [|done]. injection Hg as <-.
    injection Hl as Hl. destruct (IH _ _ _ Hl H2) as (I1 & I2 & I3 & I4). cbn in I1, I2. change (zip (k :: ks) (g :: gs)) with ((k, g) :: zip ks gs). split; [done|]. split; [|split].
    + rewrite I2. rewrite <- list_alter_compose. apply list_alter_ext; [|done]. intros x _. cbn. by rewrite <- app_assoc.
    + rewrite made_cons. cbn in I4. destruct (makes k); [|done]. apply NoDup_cons. split; [|done]. intros Hin. apply (I4 _ Hin). by left.
    + intros g'. rewrite made_cons. cbn in I4. destruct (makes k); [|by apply I4].
      intros [->|Hg']%elem_of_cons; [done|]. intros ?. apply (I4 _ Hg'). by right.
Qed.

Lemma drained_nils w bs qs' o w' : drained U w ((λ _ : buffer, []) <$> bs) qs' o w' → o = Ok tt ∧ w' = w.
Proof.
  remember ((λ _ : buffer, @nil (crec * handle)) <$> bs) as qs eqn:Eq. intros H. revert bs Eq. induction H as [w|w q w1 qs qs' o w' H1 H2 IH|w q rest e w' qs H1]; intros bs Eq.
  - done.
  - destruct bs as [|b bs]; [done|]. injection Eq as -> ->. inversion H1; subst. by eapply IH.
  - destruct bs as [|b bs]; [done|]. injection Eq as -> ->. inversion H1.
Qed.
Lemma drained_one K (b : nat) : ∀ (bs : list buffer) w qs' o w', b < length bs → drained U w (alter (.++ K) b ((λ _ : buffer, []) <$> bs)) qs' o w' →
  ∃ rest, directs U w K rest o w'.
Proof.
  induction b as [|b IH]; intros bs w qs' o w' Hb H; (destruct bs as [|x bs]; cbn in Hb; [lia|]); cbn in H.
  - inversion H as [|? ? w1 ? ? ? ? H1 H2|? ? ? ? ? ? H1]; subst; [|eauto]. apply drained_nils in H2 as [-> ->]. eauto.
  - inversion H as [|? ? w1 ? ? ? ? H1 H2|? ? ? ? ? ? H1]; subst; [|by inversion H1]. inversion H1; subst. eapply (IH bs); [lia|done].
Qed.

Lemma last_UB {A} (os : list (outcome A)) o : o ≠ UB → last (os ++ [o]) = Some UB → False.
Proof. intros Ho H. rewrite last_snoc in H. by injection H as ->. Qed.

(** The calls one thread recorded take effect in the order of recording, on entities with the handles returned, which
    are new. *)
Theorem C27_one_thread n i cs ss s b ks gs o cs' : ready U n i cs ss s → below_wrap (2 * (n + 5 * S (length ks))) →
  b < length (cs_bufs cs) → length ks = length gs →
  run_cops U i ((CRec b <$> ks) ++ [CFlush]) cs = (cs', (Ok ∘ Some <$> gs) ++ [o]) →
  all_permitted U (length (cs_bufs cs)) ((CRec b <$> ks) ++ [CFlush]) →
  (∃ m ss' s' rest o1, reach U m (cs_regs cs') ss' ∧ ss' !! i = Some s' ∧ directs U (sr_world s) (zip ks gs) rest o1 (sr_world s') ∧
     o = omap_out (λ _, None) o1 ∧ NoDup (made (zip ks gs)) ∧ ∀ g, g ∈ made (zip ks gs) → g ∉ sr_issued s) ∨
  (o = UB ∧ stuck U (cs_regs cs')).
Proof.
  intros Hr Hbw Hb Hl E Hp. assert (below_wrap (2 * (n + 5 * length ((CRec b <$> ks) ++ [CFlush])))) as Hbw'.
  { rewrite app_length, fmap_length. cbn [length]. by rewrite Nat.add_1_r. }
  destruct (C27_history n i cs ss s _ _ _ Hr Hbw' E Hp) as [(a' & Hx & Hs)|[Hu ?]].
  2:{ right. rewrite last_snoc in Hu. by injection Hu as ->. }
  left. apply cnexts_app in Hx as (os1 & os2 & a1 & Eo & H1 & H2). pose proof (cnexts_len _ _ _ _ H2) as Hl2.
  destruct os2 as [|o2 [|]]; try done. apply app_inj_tail in Eo as [<- <-].
  destruct (cnexts_recs _ _ _ _ _ Hl H1) as (W & Q & M1 & M2). cbn in W, Q, M2.
  inversion H2 as [|? ? ? ? ? ? ? H3 H4]; subst. inversion H4; subst. destruct H3 as (o1 & w' & qs' & Hd & Ho & ->). rewrite W, Q in Hd.
  apply drained_one in Hd as [rest Hd]; [|done]. destruct Hs as (m & ss' & s' & _ & Hr' & Hs' & Hw' & _). cbn in Hw'.
  exists m, ss', s', rest, o1. rewrite Hw'. done.
Qed.

(** * C28 *)
Fixpoint sets_on (b : nat) (ops : list cop) (os : list (outcome (option handle))) : nat :=
  match ops, os with
  | op :: ops, o :: os =>
      match op, o with CRec b' (KSet _ _ _), Ok _ => if decide (b' = b) then 1 else 0 | _, _ => 0 end + sets_on b ops os
  | _, _ => 0
  end.

Lemma cnexts_left b a ops os a' : cnexts U a ops os a' → ∀ m, ap_left a !! b = Some m → ap_left a' !! b = Some (m + sets_on b ops os).
Proof.
  induction 1 as [a|a op o a1 ops os a' H1 H2 IH]; intros m Hm; [cbn; by rewrite Nat.add_0_r|].
  assert (ap_left a1 !! b = Some (m + sets_on b [op] [o])) as H1'.
  { cbn. rewrite Nat.add_0_r. destruct op as [b' k|]; cbn in H1.
    - destruct H1 as [(g & -> & _ & ->)|(? & -> & -> & _ & Hk)]; cbn [ap_left].
      + destruct k; cbn [is_kset]; try by rewrite Nat.add_0_r.
        destruct (decide (b' = b)) as [->|Hne].
        * rewrite list_lookup_alter, Hm. cbn. f_equal. lia.
        * rewrite list_lookup_alter_ne by done. by rewrite Nat.add_0_r.
      + destruct k; by rewrite Nat.add_0_r.
    - destruct H1 as (o1 & w' & qs' & _ & -> & ->). cbn. by rewrite Nat.add_0_r. }
  rewrite (IH _ H1'). f_equal. cbn. lia.
Qed.
Lemma drained_ok w qs qs' o w' : drained U w qs qs' o w' → o = Ok tt → ∀ (b : nat) Q, qs' !! b = Some Q → Q = [].
Proof. induction 1 as [w|w q w1 qs qs' o w' H1 H2 IH|]; intros Ho b Q HQ; [done| |done]. destruct b; [by injection HQ as <-|by eapply IH]. Qed.

(** C28: what holds.  After a successful flush every queue is empty, and each staging storage holds what it held
    before, and one entity more for every set recorded since.  Missing: no entity. *)
Theorem C28_residue_partial n i cs ss s ops cs' os : ready U n i cs ss s → below_wrap (2 * (n + 5 * S (length ops))) →
  run_cops U i (ops ++ [CFlush]) cs = (cs', os ++ [Ok None]) →
  all_permitted U (length (cs_bufs cs)) (ops ++ [CFlush]) →
  ∃ m ss', reach U m (cs_regs cs') ss' ∧ length (cs_bufs cs') = length (cs_bufs cs) ∧
    ∀ (b : nat) x x', cs_bufs cs !! b = Some x → cs_bufs cs' !! b = Some x' →
      cb_queue x' = [] ∧ staging_size ss' x' = staging_size ss x + sets_on b ops os.
Proof.
  intros Hr Hbw E Hp. assert (below_wrap (2 * (n + 5 * length (ops ++ [CFlush])))) as Hbw'.
  { rewrite app_length. cbn [length]. by rewrite Nat.add_1_r. }
  destruct (C27_history n i cs ss s _ _ _ Hr Hbw' E Hp) as [(a' & Hx & Hs)|[Hu _]].
  2:{ by apply last_UB in Hu. }
  apply cnexts_app in Hx as (os1 & os2 & a1 & Eo & H1 & H2). pose proof (cnexts_len _ _ _ _ H2) as Hl2.
  destruct os2 as [|o2 [|]]; try done. apply app_inj_tail in Eo as [<- <-].
  inversion H2 as [|? ? ? ? ? ? ? H3 H4]; subst. inversion H4; subst. destruct H3 as (o1 & w' & qs' & Hd & Ho & ->).
  destruct o1 as [[]|e|]; try done. destruct Hs as (m & ss' & s' & _ & Hr' & Hs' & Hw' & _ & Hlq & Hb). cbn in Hlq, Hb.
  exists m, ss'. split; [done|]. split.
  { rewrite <- Hlq. assert (length qs' = length (ap_queues a1)) as -> by (clear -Hd; remember (Ok ()) as o; induction Hd; cbn; try done; f_equal; auto).
    clear -H1. assert (length (ap_queues (aprog_of cs ss s)) = length (cs_bufs cs)) as <- by (cbn; by rewrite fmap_length).
    induction H1 as [|? ? ? ? ? ? ? Hc ? IH]; [done|]. rewrite IH. by eapply cnext_len. }
  intros b x x' Hx Hx'. destruct (Hb _ _ Hx') as (Q & m' & HQ & Hm' & HlQ & Hst). assert (Q = []) as -> by (by eapply drained_ok).
  split; [by destruct (cb_queue x')|]. rewrite Hst. cbn. rewrite Nat.add_0_r.
  assert (ap_left (aprog_of cs ss s) !! b = Some (staging_size ss x)) as Hm by (cbn; by rewrite list_lookup_fmap, Hx).
  rewrite (cnexts_left _ _ _ _ _ H1 _ Hm) in Hm'. by injection Hm' as <-.
Qed.

(** * C29 *)
Lemma directs_throw_inv w l rest e w' : directs U w l rest (Throw e) w' →
  ∃ done k g w1, l = done ++ (k, g) :: rest ∧ directs U w done [] (Ok tt) w1 ∧ direct U w1 k g (Throw e) w'.
Proof.
  remember (Throw e) as o eqn:Eo. induction 1 as [w|w k g w1 l rest o w' H1 H2 IH|w k g l e' w' H1]; [done| |].
  - destruct (IH Eo) as (dn & k' & g' & w2 & -> & H3 & H4). exists ((k, g) :: dn), k', g', w2. split; [done|]. split; [by econstructor|done].
  - injection Eo as ->. exists [], k, g, w. split; [done|]. split; [constructor|done].
Qed.
Lemma directs_ok_inv w l rest w' : directs U w l rest (Ok tt) w' → rest = [].
Proof. remember (Ok tt) as o eqn:Eo. induction 1; naive_solver. Qed.
Lemma drained_throw w qs qs' e w' : drained U w qs qs' (Throw e) w' →
  ∃ pre dn k g rest post w1, qs = pre ++ (dn ++ (k, g) :: rest) :: post ∧ qs' = ((λ _, []) <$> pre) ++ rest :: post ∧
    directs U w (concat pre ++ dn) [] (Ok tt) w1 ∧ direct U w1 k g (Throw e) w'.
Proof.
  remember (Throw e) as o eqn:Eo. induction 1 as [w|w q w1 qs qs' o w' H1 H2 IH|w q rest e' w' qs H1]; [done| |].
  - destruct (IH Eo) as (pre & dn & k & g & rest & post & w2 & -> & -> & H3 & H4). exists (q :: pre), dn, k, g, rest, post, w2.
    split; [done|]. split; [done|]. split; [|done]. cbn. rewrite <- app_assoc. by eapply directs_app.
  - injection Eo as ->. apply directs_throw_inv in H1 as (dn & k & g & w1 & -> & H3 & H4). exists [], dn, k, g, rest, qs, w1. done.
Qed.

(** C29: what holds.  The commands before the one that throws took effect, the one that throws left the queue, those
    behind it stay queued in order, in its buffer and in the buffers after it, and are run by the next flush.
    Missing: commands recorded for another registry. *)
Theorem C29_throw_partial n i cs ss s ops cs' os e o : ready U n i cs ss s → below_wrap (2 * (n + 5 * (length ops + 2))) →
  run_cops U i (ops ++ [CFlush; CFlush]) cs = (cs', os ++ [Throw e; o]) →
  all_permitted U (length (cs_bufs cs)) (ops ++ [CFlush; CFlush]) →
  (∃ a pre dn k g rest post w1 w2 qs' o1 w', cnexts U (aprog_of cs ss s) ops os a ∧
     ap_queues a = pre ++ (dn ++ (k, g) :: rest) :: post ∧
     directs U (ap_world a) (concat pre ++ dn) [] (Ok tt) w1 ∧ direct U w1 k g (Throw e) w2 ∧
     drained U w2 (((λ _, []) <$> pre) ++ rest :: post) qs' o1 w' ∧ o = omap_out (λ _, None) o1 ∧
     shows U (n + 5 * (length ops + 2)) i cs' (AProg w' (ap_known a) qs' (ap_left a))) ∨
  (o = UB ∧ stuck U (cs_regs cs')).
Proof.
  intros Hr Hbw E Hp. assert (below_wrap (2 * (n + 5 * length (ops ++ [CFlush; CFlush])))) as Hbw' by (by rewrite app_length).
  destruct (C27_history n i cs ss s _ _ _ Hr Hbw' E Hp) as [(a' & Hx & Hs)|[Hu ?]].
  2:{ right. replace (os ++ [Throw e; o]) with ((os ++ [Throw e]) ++ [o]) in Hu by (by rewrite <- app_assoc). rewrite last_snoc in Hu. by injection Hu as ->. }
  left. apply cnexts_app in Hx as (os1 & os2 & a1 & Eo & H1 & H2). pose proof (cnexts_len _ _ _ _ H2) as Hl2.
  destruct os2 as [|oa [|ob [|]]]; try done. replace (os ++ [Throw e; o]) with ((os ++ [Throw e]) ++ [o]) in Eo by (by rewrite <- app_assoc).
  replace (os1 ++ [oa; ob]) with ((os1 ++ [oa]) ++ [ob]) in Eo by (by rewrite <- app_assoc).
  apply app_inj_tail in Eo as [Eo <-]. apply app_inj_tail in Eo as [<- <-].
  inversion H2 as [|? ? ? a2 ? ? ? H3 H4]; subst. inversion H4 as [|? ? ? a3 ? ? ? H5 H6]; subst. inversion H6; subst.
  destruct H3 as (o1 & w2 & qs2 & Hd & Ho & ->). destruct o1 as [[]|e1|]; try done. injection Ho as <-.
  destruct H5 as (o3 & w3 & qs3 & Hd3 & -> & ->). cbn in Hd3, Hs.
  destruct (drained_throw _ _ _ _ _ Hd) as (pre & dn & k & g & rest & post & w1 & Eq & -> & D1 & D2).
  exists a1, pre, dn, k, g, rest, post, w1, w2, qs3, o3, w3. rewrite app_length in Hs. done.
Qed.

(** The same for the queues alone, in every state and whatever the commands do. *)
Lemma play_throw stg i q : ∀ rs rs' q' e, play U stg i q rs = (rs', q', Throw e) → ∃ dn c, q = dn ++ c :: q'.
Proof.
  induction q as [|c q IH]; intros rs rs' q' e E; cbn in E; [done|]. destruct (exec_cmd U stg i c rs) as [rs1 [[]|e1|]].
  - destruct (IH _ _ _ _ E) as (dn & c' & ->). by exists (c :: dn), c'.
  - injection E as _ <- _. by exists [], c.
  - done.
Qed.
Lemma play_ok stg i q : ∀ rs rs' q', play U stg i q rs = (rs', q', Ok tt) → q' = [].
Proof.
  induction q as [|c q IH]; intros rs rs' q' E; cbn in E; [by injection E as _ <-|]. destruct (exec_cmd U stg i c rs) as [rs1 [[]|e1|]]; [|done|done]. by eapply IH.
Qed.
Theorem C29_queues_partial i bs : ∀ rs rs' bs' e, play_all U i bs rs = (rs', bs', Throw e) →
  ∃ pre x post dn c q, bs = pre ++ x :: post ∧ cb_queue x = dn ++ c :: q ∧
    bs' = ((λ y, Buffer (cb_staging y) [] true) <$> pre) ++ Buffer (cb_staging x) q true :: post.
Proof.
  induction bs as [|x bs IH]; intros rs rs' bs' e E; cbn in E; [done|]. destruct (cb_live x); [|done].
  destruct (play U (cb_staging x) i (cb_queue x) rs) as [[rs1 q1] [[]|e1|]] eqn:E1.
  - destruct (play_all U i bs rs1) as [[rs2 bs2] o2] eqn:E2. injection E as -> <- ->. apply play_ok in E1 as ->.
    destruct (IH _ _ _ _ E2) as (pre & y & post & dn & c & q & -> & Hq & ->). exists (x :: pre), y, post, dn, c, q. done.
  - injection E as _ <- _. destruct (play_throw _ _ _ _ _ _ _ E1) as (dn & c & Hq). exists [], x, bs, dn, c, q1. done.
  - done.
Qed.

(** * C52: no flush succeeds after a thread that used commands has ended. *)
Theorem C52_exit_refuted b i cs cs1 cs2 o : cb_exit b cs = (cs1, Ok tt) → flush U i cs1 = (cs2, o) → o ≠ Ok tt.
Proof.
  unfold cb_exit. destruct (cb_at cs b) as [x|] eqn:Hx; [|done]. intros [= <-] E ->. unfold flush, bind, on_regs_of in E. cbn in E.
  destruct (call_unit U (At i OSync) (cs_regs cs)) as [rs [[]|e|]]; try done. cbn in E.
  unfold cb_at in Hx. destruct (cs_bufs cs !! b) as [x0|] eqn:Hb; [|done]. apply lookup_lt_Some in Hb. clear Hx x0.
  assert (<[b := Buffer (cb_staging x) [] false]> (cs_bufs cs) !! b = Some (Buffer (cb_staging x) [] false)) as Hl by (by apply list_lookup_insert).
  revert Hl E. generalize (<[b := Buffer (cb_staging x) [] false]> (cs_bufs cs)) as bs. clear Hb. intros bs Hl E.
  destruct (play_all U i bs rs) as [[rs' bs'] o'] eqn:Ep. injection E as _ ->. revert b rs rs' bs' Hl Ep.
  induction bs as [|y bs IH]; intros b rs rs' bs' Hl Ep; [done|]. destruct b as [|b]; cbn in Hl, Ep.
  - injection Hl as ->. done.
  - destruct (cb_live y); [|done]. destruct (play U (cb_staging y) i (cb_queue y) rs) as [[rs1 q1] [[]|e1|]]; try done.
    destruct (play_all U i bs rs1) as [[rs2 bs2] o2] eqn:E2. injection Ep as _ _ ->. by eapply IH.
Qed.
End props.

(** * Refutations and examples *)

(** Registry 0, two threads with staging registries 1 and 2. *)
Definition cs0 : cstate := CState (replicate 3 rg_init) [Buffer 1 [] true; Buffer 2 [] true].
Example ex_ready : ready U0 0 0 cs0 (replicate 3 sreg_init) sreg_init.
Proof.
  split; [apply (Reach0 U0 3)|done| |apply (bool_decide_unpack _); by vm_compute].
  intros [|[|b]] x Hx; cbn in Hx; simplify_eq; cbn; (split; [done|]; split; [done|]; split; [done|]; by exists sreg_init).
Qed.
Ltac permits := repeat (apply Forall_cons; split); [cbn; repeat (split; try lia); try done; try (apply (bool_decide_unpack _); by vm_compute)..|by apply Forall_nil].
Ltac informs := lazy; repeat match goal with |- _ ∧ _ => split | |- True => exact Logic.I | |- ∀ _, _ → _ => intros ? [= <-] end; repeat constructor.

(** Two creations, a set, a removal, a clone and a destruction on one thread. *)
Definition h0 : handle := Handle 0 0.
Definition h1 : handle := Handle 1 0.
Definition h2 : handle := Handle 2 0.
Definition ks27 : list crec :=
  [KCreate [(1%N, Val 10); (2%N, Val 20)]; KCreate [(1%N, Val 11)]; KSet h1 3%N (Val 33); KRemove h0 2%N; KClone h1; KDestroy h0].
Definition gs27 : list handle := [h0; h1; h1; h0; h2; h0].
Definition cs27 : cstate := (run_cops U0 0 ((CRec 0 <$> ks27) ++ [CFlush]) cs0).1.
Example ex_C27_run : run_cops U0 0 ((CRec 0 <$> ks27) ++ [CFlush]) cs0 = (cs27, (Ok ∘ Some <$> gs27) ++ [Ok None]).
Proof. by vm_compute. Qed.
Example ex_C27_perm : all_permitted U0 2 ((CRec 0 <$> ks27) ++ [CFlush]).
Proof. permits. Qed.
Example ex_C27 := C27_one_thread U0 U0_wf 0 0 cs0 _ _ 0 ks27 gs27 (Ok None) cs27 ex_ready ltac:(by vm_compute) ltac:(cbn; lia) eq_refl ex_C27_run ex_C27_perm.
Lemma bw35 : below_wrap (2 * (0 + 5 * 7)). Proof. by vm_compute. Qed.
Example ex_C27_history := C27_history U0 U0_wf 0 0 cs0 _ _ ((CRec 0 <$> ks27) ++ [CFlush]) _ _ ex_ready bw35 ex_C27_run ex_C27_perm.
Example ex_C27_seen : let r := default rg_init (cs_regs cs27 !! 0) in
  (rg_size r, (rg_get h1 3%N r).2, (rg_get h2 3%N r).2, (rg_get h2 1%N r).2, rg_alive r h0) = (2%N, Ok (CVal (Val 33)), Ok (CVal (Val 33)), Ok (CVal (Val 11)), false).
Proof. by vm_compute. Qed.

(** Commands for handles that were never handed out: the first flush throws, the second executes the create behind them. *)
Definition ops27f : list cop := [CRec 0 (KDestroy (Handle 7 3)); CRec 0 (KCreate [(1%N, Val 1)]); CRec 1 (KSet h0 2%N (Val 2)); CFlush; CFlush].
Example ex_C27_foreign_run : run_cops U0 0 ops27f cs0 =
  ((run_cops U0 0 ops27f cs0).1, [Ok (Some (Handle 7 3)); Ok (Some h0); Ok (Some h0); Throw EntityNotFound; Ok None]).
Proof. by vm_compute. Qed.
Example ex_C27_foreign := C27_history U0 U0_wf 0 0 cs0 _ _ ops27f _ _ ex_ready ltac:(by vm_compute) ex_C27_foreign_run ltac:(permits).

(** C28: set leaves its staged copy behind. *)
Theorem C28_set_refuted : ∃ ops cs' os ss s x, ready U0 0 0 cs0 ss s ∧ all_permitted U0 2 ops ∧ informed (sr_issued s) ops os ∧
  run_cops U0 0 ops cs0 = (cs', os) ∧ last ops = Some CFlush ∧ Forall (λ o, ∃ r, o = Ok r) os ∧
  cs_bufs cs' !! 0 = Some x ∧ cb_queue x = [] ∧ rg_size <$> cs_regs cs' !! cb_staging x = Some 2%N.
Proof.
  set (ops := [CRec 0 (KCreate [(1%N, Val 1)]); CRec 0 (KSet h0 2%N (Val 2)); CRec 0 (KSet h0 2%N (Val 3)); CFlush]).
  exists ops, (run_cops U0 0 ops cs0).1, [Ok (Some h0); Ok (Some h0); Ok (Some h0); Ok None], (replicate 3 sreg_init), sreg_init, (Buffer 1 [] true).
  split; [apply ex_ready|]. split; [permits|]. split; [informs|]. split; [by vm_compute|]. split; [done|]. split; [repeat constructor; eauto|]. by vm_compute.
Qed.
Definition ops28 : list cop := [CRec 0 (KCreate [(1%N, Val 1)]); CRec 0 (KSet h0 2%N (Val 2)); CRec 1 (KSet h0 2%N (Val 3)); CRec 1 (KCreate [(2%N, Val 1)])].
Definition os28 : list (outcome (option handle)) := [Ok (Some h0); Ok (Some h0); Ok (Some h0); Ok (Some h1)].
Example ex_C28_run : run_cops U0 0 (ops28 ++ [CFlush]) cs0 = ((run_cops U0 0 (ops28 ++ [CFlush]) cs0).1, os28 ++ [Ok None]).
Proof. by vm_compute. Qed.
Example ex_C28 := C28_residue_partial U0 U0_wf 0 0 cs0 _ _ ops28 _ os28 ex_ready ltac:(by vm_compute) ex_C28_run ltac:(permits).
Example ex_C28_sets : (sets_on 0 ops28 os28, sets_on 1 ops28 os28) = (1, 1). Proof. done. Qed.

(** C29: the second destruction throws, the commands behind it stay queued and run at the next flush. *)
Definition ops29 : list cop := [CRec 0 (KCreate [(1%N, Val 1)]); CRec 0 (KCreate [(1%N, Val 2)]); CFlush;
  CRec 0 (KDestroy h0); CRec 0 (KDestroy h0); CRec 0 (KSet h1 2%N (Val 7)); CRec 1 (KRemove h1 1%N)].
Definition os29 : list (outcome (option handle)) := [Ok (Some h0); Ok (Some h1); Ok None; Ok (Some h0); Ok (Some h0); Ok (Some h1); Ok (Some h1)].
Definition cs29 : cstate := (run_cops U0 0 (ops29 ++ [CFlush; CFlush]) cs0).1.
Example ex_C29_run : run_cops U0 0 (ops29 ++ [CFlush; CFlush]) cs0 = (cs29, os29 ++ [Throw EntityNotFound; Ok None]).
Proof. by vm_compute. Qed.
Example ex_C29 := C29_throw_partial U0 U0_wf 0 0 cs0 _ _ ops29 _ os29 EntityNotFound (Ok None) ex_ready ltac:(by vm_compute) ex_C29_run ltac:(permits).
Example ex_C29_seen : let r := default rg_init (cs_regs cs29 !! 0) in
  (rg_size r, (rg_get h1 2%N r).2, (rg_has h1 [1%N] r).2) = (1%N, Ok (CVal (Val 7)), Ok false).
Proof. by vm_compute. Qed.
Example ex_C29_queues : ∃ e, (play_all U0 0 (cs_bufs (run_cops U0 0 ops29 cs0).1) (cs_regs (run_cops U0 0 ops29 cs0).1)).2 = Throw e.
Proof. eexists. by vm_compute. Qed.

(** A command recorded for registry 0 is applied to registry 1, when registry 1 is flushed first. *)
Definition cs29x : cstate :=
  CState (regs_of 3 [At 0 (OCreate [(1%N, Val 1)]); At 1 (OCreate [(1%N, Val 2)])]) [Buffer 2 [] true].
Theorem C29_cross_refuted : ∃ ss s0 s1 cs1 cs2, ready U0 2 0 cs29x ss s0 ∧ ready U0 2 1 cs29x ss s1 ∧ h0 ∈ sr_issued s0 ∧
  record1 U0 0 0 (KDestroy h0) cs29x = (cs1, Ok h0) ∧ flush U0 1 cs1 = (cs2, Ok tt) ∧
  (λ r, rg_alive r h0) <$> cs_regs cs1 = [true; true; false] ∧ (λ r, rg_alive r h0) <$> cs_regs cs2 = [true; false; false] ∧
  cb_queue <$> cs_bufs cs2 = [[]].
Proof.
  set (ops := [At 0 (OCreate [(1%N, Val 1)]); At 1 (OCreate [(1%N, Val 2)])]).
  assert (reach U0 2 (cs_regs cs29x) (recs_of 3 ops)) as Hr by (apply (final_reach 3 ops); by vm_compute).
  assert (∀ i, i < 2 → ready U0 2 i cs29x (recs_of 3 ops) (default sreg_init (recs_of 3 ops !! i))) as Hrd.
  { intros i Hi. split; [done| | |apply (bool_decide_unpack _); by vm_compute].
    - destruct i as [|[|i]]; [by vm_compute|by vm_compute|lia].
    - intros [|b] x Hx; cbn in Hx; simplify_eq. cbn. split; [done|]. split; [done|]. split; [lia|]. exists sreg_init. by vm_compute. }
  exists (recs_of 3 ops), (default sreg_init (recs_of 3 ops !! 0)), (default sreg_init (recs_of 3 ops !! 1)),
    (record1 U0 0 0 (KDestroy h0) cs29x).1, (flush U0 1 (record1 U0 0 0 (KDestroy h0) cs29x).1).1.
  split; [apply Hrd; lia|]. split; [apply Hrd; lia|]. split; [cbn; apply (bool_decide_unpack _); by vm_compute|]. by vm_compute.
Qed.

(** C52: a thread that recorded a command ends before the flush. *)
Theorem C52_ub_refuted : ∃ cs1 cs2 cs3, record1 U0 0 0 (KCreate [(1%N, Val 1)]) cs0 = (cs1, Ok h0) ∧ cb_exit 0 cs1 = (cs2, Ok tt) ∧
  flush U0 0 cs2 = (cs3, UB).
Proof.
  exists (record1 U0 0 0 (KCreate [(1%N, Val 1)]) cs0).1, (cb_exit 0 (record1 U0 0 0 (KCreate [(1%N, Val 1)]) cs0).1).1.
  eexists. split; [by vm_compute|]. split; [by vm_compute|]. by vm_compute.
Qed.

(** C53: thread 1 creates an entity and passes it to thread 0, which sets a component; the flush plays thread 0 first. *)
Theorem C53_order_refuted : ∃ ops cs' gs ss s, ready U0 0 0 cs0 ss s ∧ all_permitted U0 2 ops ∧ informed (sr_issued s) ops (Ok ∘ Some <$> gs) ∧
  run_cops U0 0 ops cs0 = (cs', Ok ∘ Some <$> gs) ∧
  (∃ w, directs U0 (sr_world s) (zip (omap (λ op, match op with CRec _ k => Some k | CFlush => None end) ops) gs) [] (Ok tt) w) ∧
  (flush U0 0 cs').2 = Throw OutOfRange.
Proof.
  set (ops := [CRec 1 (KCreate [(1%N, Val 1)]); CRec 0 (KSet h0 2%N (Val 2))]).
  exists ops, (run_cops U0 0 ops cs0).1, [h0; h0], (replicate 3 sreg_init), sreg_init.
  split; [apply ex_ready|]. split; [permits|]. split; [informs|]. split; [by vm_compute|]. split; [|by vm_compute].
  eexists. cbn. eapply DirectsOk; [by split|]. eapply DirectsOk; [|constructor]. cbn. rewrite lookup_insert. by left.
Qed.

Print Assumptions C27_history.
Print Assumptions C27_direct.
Print Assumptions C27_one_thread.
Print Assumptions C28_residue_partial.
Print Assumptions C28_set_refuted.
Print Assumptions C29_throw_partial.
Print Assumptions C29_queues_partial.
Print Assumptions C29_cross_refuted.
Print Assumptions C52_exit_refuted.
Print Assumptions C52_ub_refuted.
Print Assumptions C53_order_refuted.
