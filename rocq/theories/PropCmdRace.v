(** C83: recording and flushing commands on several threads. *)
From Verif Require Import Base CmdRace CmdRaceProofs.

(** If the user orders flushes and commands, and flushes of one registry, there is no data race.  Nothing else needs an order:
    writers may be constructed at any time, commands may be recorded on all threads, and registries flushed beside each other. *)
Theorem C83_ordered s : creach s → user_orders (cs_trace s) → ¬ data_race (cs_trace s).
Proof.
  intros Hr Hu (i & j & e & f & l & w1 & w2 & Hij & He & Hf & Hne & Te & Tf & Hw & Hno). destruct (reach_inv s Hr) as [_ H]. apply Hno.
  destruct l as [b| |r].
  - assert (ev_act e = CAcc (LBuf b) w1) as Ae by (destruct (ev_act e); by simplify_eq/=). assert (ev_act f = CAcc (LBuf b) w2) as Af by (destruct (ev_act f); by simplify_eq/=).
    destruct (ti_buf _ _ _ H i e b w1 He Ae) as [Ce|[[Te' (r1 & rd1 & Oe)]|[Fe _]]], (ti_buf _ _ _ H j f b w2 Hf Af) as [Cf|[[Tf' (r2 & rd2 & Of)]|[Ff _]]].
    + destruct Ce as (_ & ? & _), Cf as (_ & ? & _). congruence.
    + destruct Ce as (_ & ? & _). congruence.
    + destruct (ti_seen _ _ _ H i j e f b He Ce Hf Ff) as (k & g & Hik & Hkj & Hg & Hgt & Hgr). destruct Ce as (_ & Hte & _).
      eapply hb_trans; [eapply (hb_thread _ i k); [done|done|done|congruence]|]. eapply (ti_cs _ _ _ H k j g f); [done|done|done|by left|by do 2 right; exists b|congruence].
    + destruct Cf as (_ & ? & _). congruence.
    + congruence.
    + destruct Ff as (r & w & v & Of & _). eapply Hu; [done|done|done|done|]. by rewrite Oe, Of.
    + destruct (ti_seen _ _ _ H j i f e b Hf Cf He Fe) as (k & g & ? & ? & _). lia.
    + destruct Fe as (r & w & v & Oe & _). eapply Hu; [done|done|done|done|]. by rewrite Oe, Of.
    + eapply (ti_cs _ _ _ H i j e f); [done|done|done|by do 2 right; exists b|by do 2 right; exists b|done].
  - assert (∀ x y z, cs_trace s !! x = Some y → touches (ev_act y) = Some (LList, z) → in_cs y) as Hin.
    { intros x y z Hx Ty. pose proof (λ v, ti_list _ _ _ H x y v Hx) as Hnl. destruct (ev_act y) as [l w| | | |r|u] eqn:Ea; cbn in Ty; try done.
      - destruct (Hnl w). by simplify_eq.
      - by left.
      - right. left. by exists r. }
    eapply (ti_cs _ _ _ H i j e f); eauto.
  - assert (ev_act e = CAcc (LReg r) w1) as Ae by (destruct (ev_act e); by simplify_eq/=). assert (ev_act f = CAcc (LReg r) w2) as Af by (destruct (ev_act f); by simplify_eq/=).
    eapply Hu; [done|done|done|done|].
    destruct (ti_reg _ _ _ H i e r w1 He Ae) as [[-> [rd1 Oe]]|[x1 Oe]], (ti_reg _ _ _ H j f r w2 Hf Af) as [[-> [rd2 Of]]|[x2 Of]]; rewrite Oe, Of; done.
Qed.

(** Any number of threads may record commands for any registries at the same time, without an order. *)
Theorem C83_recording s : creach s → (∀ e r w, e ∈ cs_trace s → ev_op e ≠ OFlush r w) → ¬ data_race (cs_trace s).
Proof.
  intros Hr Hno. apply C83_ordered; [done|]. intros i j e f _ He Hf _ Hn. apply elem_of_list_lookup_2 in He, Hf.
  destruct (ev_op e) as [|r rd|r w|u] eqn:Oe, (ev_op f) as [|r' rd'|r' w'|u'] eqn:Of; cbn in Hn; try done; exfalso; first [by eapply (Hno e)|by eapply (Hno f)].
Qed.

(** * Refutations *)
(** What nothing in its own thread follows, and is neither an unlock nor an order by the user, happens before nothing. *)
Lemma no_hb tr i j e l w : tr !! i = Some e → ev_act e = CAcc l w → (∀ k f, i < k → tr !! k = Some f → ev_thread f ≠ ev_thread e) → ¬ hb tr i j.
Proof.
  intros He Ha Hno. unfold hb. intros Hb. assert (∃ k, hb_edge tr i k) as [k (Hlt & e' & f & He' & Hf & H)]. { inversion Hb; eauto. }
  rewrite He in He'. injection He' as <-. specialize (Hno k f Hlt Hf). rewrite Ha in H. destruct H as [?|[[? _]|?]]; congruence.
Qed.
Lemma run_accs p lk bufs tr t o l rest : (∀ a, a ∈ l → ∃ x w, a = CAcc x w) → p t = (o, l ++ rest) →
  ∃ p', rtc cstep (CSt p lk bufs tr) (CSt p' lk bufs (tr ++ (CEv t o <$> l))) ∧ p' t = (o, rest) ∧ ∀ u, u ≠ t → p' u = p u.
Proof.
  revert p tr. induction l as [|a l IH]; intros p tr Hl Hp.
  - exists p. cbn. rewrite app_nil_r. split_and!; [done|done|done].
  - destruct (Hl a) as (x & w & ->); [by left|]. destruct (IH (upd p t (o, l ++ rest)) (tr ++ [CEv t o (CAcc x w)])) as (p' & Hr & Hp' & Ho).
    + intros b Hb. apply Hl. by right.
    + by rewrite upd_same.
    + exists p'. split_and!; [|done|].
      * eapply rtc_l; [eapply do_acc; exact Hp|]. rewrite <- app_assoc in Hr. exact Hr.
      * intros u Hu. rewrite Ho by done. by rewrite upd_other.
Qed.

(** A thread records a command for one registry while another thread flushes another registry: the flush reads the commands of all
    threads.  This holds in every state in which both threads are between operations. *)
Theorem C83_flush_refuted s t u o o' r r' w : creach s → cs_lock s = None → cs_prog s t = (o, []) → cs_prog s u = (o', []) → t ≠ u → u ∈ cs_bufs s →
  ∃ s', rtc cstep s s' ∧ data_race (cs_trace s') ∧
    ∀ e, e ∈ drop (length (cs_trace s)) (cs_trace s') → (ev_thread e = u ∧ ev_op e = ORecord r false) ∨ (ev_thread e = t ∧ ev_op e = OFlush r' w).
Proof.
  destruct s as [p lk bufs tr]. cbn [cs_lock cs_prog cs_bufs cs_trace]. intros _ -> Ht Hu Hne Hin.
  set (p1 := upd p u (ORecord r false, [CAcc (LBuf u) true])). set (p2 := upd p1 u (ORecord r false, [])).
  set (e1 := CEv u (ORecord r false) (CAcc (LBuf u) true)).
  set (p3 := upd p2 t (OFlush r' w, [CAcc (LReg r') w; CLock; CPlay r'; CUnlock])).
  set (p4 := upd p3 t (OFlush r' w, [CLock; CPlay r'; CUnlock])). set (p5 := upd p4 t (OFlush r' w, [CPlay r'; CUnlock])).
  set (L := bufs ≫= play_acts r' (λ _, false)). set (p6 := upd p5 t (OFlush r' w, L ++ [CUnlock])).
  destruct (run_accs p6 (Some t) bufs ((((tr ++ [e1]) ++ [CEv t (OFlush r' w) (CAcc (LReg r') w)]) ++ [CEv t (OFlush r' w) CLock]) ++ [CEv t (OFlush r' w) (CPlay r')]) t (OFlush r' w) L [CUnlock])
    as (p7 & Hrun & _ & _).
  { intros a (b & Ha & _)%elem_of_list_bind. cbn in Ha. apply elem_of_list_singleton in Ha. eauto. }
  { apply upd_same. }
  assert (((((tr ++ [e1]) ++ [CEv t (OFlush r' w) (CAcc (LReg r') w)]) ++ [CEv t (OFlush r' w) CLock]) ++ [CEv t (OFlush r' w) (CPlay r')]) ++ (CEv t (OFlush r' w) <$> L) =
    tr ++ e1 :: (CEv t (OFlush r' w) <$> (CAcc (LReg r') w :: CLock :: CPlay r' :: L))) as Etr by (by rewrite <- !app_assoc).
  rewrite Etr in Hrun. eexists. split; [|split].
  - eapply rtc_l; [eapply (do_start p None bufs tr u o' (ORecord r false)); [done|done]|].
    eapply rtc_l; [eapply (do_acc p1 None bufs tr u (ORecord r false)); apply upd_same|].
    eapply rtc_l; [eapply (do_start p2 None bufs _ t o (OFlush r' w)); [|done]; unfold p2, p1; rewrite !upd_other by done; done|].
    eapply rtc_l; [eapply (do_acc p3); apply upd_same|]. eapply rtc_l; [eapply (do_lock p4); apply upd_same|].
    eapply rtc_l; [eapply (do_play p5 _ _ _ t _ r' _ (λ _, false)); apply upd_same|]. exact Hrun.
  - cbn [cs_trace]. assert (CAcc (LBuf u) false ∈ L) as HL. { apply elem_of_list_bind. exists u. split; [cbn; by left|done]. }
    apply elem_of_list_lookup in HL as [k Hk].
    exists (length tr), (length tr + S (S (S (S k)))), e1, (CEv t (OFlush r' w) (CAcc (LBuf u) false)), (LBuf u), true, false. split_and!; try done; [lia|by apply list_lookup_middle| |].
    + rewrite lookup_app_r by lia. replace (length tr + S (S (S (S k))) - length tr) with (S (S (S (S k)))) by lia.
      change ((CEv t (OFlush r' w) <$> L) !! k = Some (CEv t (OFlush r' w) (CAcc (LBuf u) false))). by rewrite (list_lookup_fmap (CEv t (OFlush r' w)) L k), Hk.
    + eapply no_hb; [by apply list_lookup_middle|done|]. intros m f Hm Hf. rewrite lookup_app_r in Hf by lia. destruct (m - length tr) as [|m'] eqn:Em; [lia|].
      change ((CEv t (OFlush r' w) <$> (CAcc (LReg r') w :: CLock :: CPlay r' :: L)) !! m' = Some f) in Hf. rewrite (list_lookup_fmap (CEv t (OFlush r' w))) in Hf.
      destruct (_ !! m') as [a|]; cbn in Hf; [|done]. injection Hf as <-. cbn. done.
  - intros e. cbn [cs_trace]. rewrite drop_app. intros [->|He]%elem_of_cons; [by left|]. apply elem_of_list_fmap in He as (a & -> & _). by right.
Qed.

(** Two threads flush the same registry: both call sync before they lock the mutex. *)
Theorem C83_sync_refuted s t u o o' r w : creach s → cs_prog s t = (o, []) → cs_prog s u = (o', []) → t ≠ u →
  ∃ s', rtc cstep s s' ∧ data_race (cs_trace s') ∧ ∀ e, e ∈ drop (length (cs_trace s)) (cs_trace s') → ev_op e = OFlush r true ∨ ev_op e = OFlush r w.
Proof.
  destruct s as [p lk bufs tr]. cbn [cs_prog cs_bufs cs_trace]. intros _ Ht Hu Hne.
  set (p1 := upd p t (OFlush r true, [CAcc (LReg r) true; CLock; CPlay r; CUnlock])). set (p2 := upd p1 u (OFlush r w, [CAcc (LReg r) w; CLock; CPlay r; CUnlock])).
  set (p3 := upd p2 t (OFlush r true, [CLock; CPlay r; CUnlock])).
  eexists. split; [|split].
  - eapply rtc_l; [eapply (do_start p lk bufs tr t o (OFlush r true)); done|].
    eapply rtc_l; [eapply (do_start p1 lk bufs tr u o' (OFlush r w)); [unfold p1; by rewrite upd_other|done]|].
    eapply rtc_l; [eapply (do_acc p2 lk bufs tr t (OFlush r true)); unfold p2; rewrite upd_other by done; apply upd_same|].
    eapply rtc_l; [eapply (do_acc p3 lk bufs _ u (OFlush r w)); unfold p3; rewrite upd_other by done; apply upd_same|]. apply rtc_refl.
  - cbn [cs_trace]. rewrite <- app_assoc. cbn [app].
    exists (length tr), (S (length tr)), (CEv t (OFlush r true) (CAcc (LReg r) true)), (CEv u (OFlush r w) (CAcc (LReg r) w)), (LReg r), true, w.
    split_and!; try done; [lia|by apply list_lookup_middle| |].
    + rewrite lookup_app_r by lia. by replace (S (length tr) - length tr) with 1 by lia.
    + eapply no_hb; [by apply list_lookup_middle|done|]. intros m f Hm Hf. rewrite lookup_app_r in Hf by lia. destruct (m - length tr) as [|[|m']] eqn:Em; [lia| |done].
      cbn in Hf. injection Hf as <-. cbn. done.
  - intros e. cbn [cs_trace]. rewrite <- app_assoc, drop_app. cbn. intros [->|[->|He]%elem_of_cons]%elem_of_cons; [by left|by right|by apply elem_of_nil in He].
Qed.

(** * Examples: a schedule given step by step *)
Inductive crun := RStart (t : nat) (o : cop) | RStep (t : nat).
Definition crun1 (s : cstate) (x : crun) : option cstate :=
  let 'CSt p lk bufs tr := s in
  match x with
  | RStart t o =>
    match p t with
    | (_, []) => if (match o with ORecord _ _ => bool_decide (t ∈ bufs) | _ => true end) then Some (CSt (upd p t (o, op_acts bufs t o)) lk bufs tr) else None
    | _ => None end
  | RStep t =>
    match p t with
    | (_, []) => None
    | (o, CAcc l w :: rest) => Some (CSt (upd p t (o, rest)) lk bufs (tr ++ [CEv t o (CAcc l w)]))
    | (o, CLock :: rest) => match lk with None => Some (CSt (upd p t (o, rest)) (Some t) bufs (tr ++ [CEv t o CLock])) | _ => None end
    | (o, CUnlock :: rest) => Some (CSt (upd p t (o, rest)) None bufs (tr ++ [CEv t o CUnlock]))
    | (o, CRegister :: rest) => Some (CSt (upd p t (o, rest)) lk (bufs ++ [t]) (tr ++ [CEv t o CRegister]))
    | (o, CPlay r :: rest) => Some (CSt (upd p t (o, (bufs ≫= play_acts r (λ _, true)) ++ rest)) lk bufs (tr ++ [CEv t o (CPlay r)]))
    | (o, CSync u :: rest) => Some (CSt (upd p t (o, rest)) lk bufs (tr ++ [CEv t o (CSync u)]))
    end
  end.
Definition cruns (l : list crun) (s : cstate) : option cstate := foldl (λ s x, s ← s; crun1 s x) (Some s) l.
Lemma crun1_step s x s' : crun1 s x = Some s' → cstep s s'.
Proof.
  destruct s as [p lk bufs tr], x as [t o|t]; cbn.
  - destruct (p t) as [o' [|? ?]] eqn:E; [|done]. destruct (match o with ORecord _ _ => _ | _ => _ end) eqn:Eb; [|done]. intros [= <-]. eapply do_start; [done|].
    destruct o; cbn; try done. by apply bool_decide_eq_true in Eb.
  - destruct (p t) as [o [|[l w| | | |r|u] rest]] eqn:E; [done|..].
    + intros [= <-]. by apply do_acc.
    + destruct lk; [done|]. intros [= <-]. by apply do_lock.
    + intros [= <-]. by apply do_unlock.
    + intros [= <-]. by apply do_register.
    + intros [= <-]. by apply do_play.
    + intros [= <-]. by apply do_sync.
Qed.
Lemma cruns_reach l s s' : creach s → cruns l s = Some s' → creach s'.
Proof.
  unfold cruns. revert s. induction l as [|x l IH]; intros s Hr; cbn; [by intros [= <-]|].
  destruct (crun1 s x) as [s1|] eqn:E; cbn.
  - intros H. apply (IH s1); [|done]. eapply rtc_r; [exact Hr|by apply (crun1_step _ x)].
  - intros H. exfalso. clear -H. induction l as [|y l IHl]; [done|]. by apply IHl.
Qed.
(** Happens-before can be computed: [k] rounds from the events after [i]. *)
Definition hb_edgeb (tr : list cevent) (i j : nat) : bool :=
  match tr !! i, tr !! j with
  | Some e, Some f => bool_decide (i < j) && (bool_decide (ev_thread e = ev_thread f) ||
      match ev_act e, ev_act f with CUnlock, CLock => true | CSync u, _ => bool_decide (u = ev_thread f) | _, _ => false end)
  | _, _ => false
  end.
Fixpoint hbb (fuel : nat) (tr : list cevent) (i j : nat) : bool :=
  match fuel with O => false | S fuel => hb_edgeb tr i j || existsb (λ k, hb_edgeb tr i k && hbb fuel tr k j) (seq (S i) (j - S i)) end.
Lemma hb_edgeb_sound tr i j : hb_edgeb tr i j = true → hb_edge tr i j.
Proof.
  unfold hb_edgeb. destruct (tr !! i) as [e|] eqn:Ei; [|done]. destruct (tr !! j) as [f|] eqn:Ej; [|done]. intros [H1%bool_decide_eq_true H2]%andb_true_iff.
  split; [done|]. exists e, f. split_and!; [done|done|]. apply orb_true_iff in H2 as [H2%bool_decide_eq_true|H2]; [by left|].
  destruct (ev_act e), (ev_act f); try done; try (apply bool_decide_eq_true in H2; subst; by do 2 right). by right; left.
Qed.
Lemma hbb_sound n tr i j : hbb n tr i j = true → hb tr i j.
Proof.
  revert i. induction n as [|n IH]; intros i; [done|]. cbn. intros [H|H]%orb_true_iff; [by apply tc_once, hb_edgeb_sound|].
  apply existsb_exists in H as (k & _ & [H1 H2]%andb_true_iff). eapply tc_l; [by apply hb_edgeb_sound|by apply IH].
Qed.
Definition needs_orderb (a b : cop) : bool :=
  match a, b with OFlush _ _, ORecord _ _ | ORecord _ _, OFlush _ _ => true | OFlush r _, OFlush r' _ => bool_decide (r = r') | _, _ => false end.
Definition user_ordersb (tr : list cevent) : bool :=
  forallb (λ j, forallb (λ i, match tr !! i, tr !! j with
    | Some e, Some f => bool_decide (ev_thread e = ev_thread f) || negb (needs_orderb (ev_op e) (ev_op f)) || hbb 4 tr i j
    | _, _ => true end) (seq 0 j)) (seq 0 (length tr)).
Lemma user_ordersb_sound tr : user_ordersb tr = true → user_orders tr.
Proof.
  intros H i j e f Hij He Hf Hne Hn. unfold user_ordersb in H. rewrite forallb_forall in H.
  specialize (H j). rewrite forallb_forall in H. assert (In j (seq 0 (length tr))) as Hj. { apply in_seq. apply lookup_lt_Some in Hf. lia. }
  specialize (H Hj i ltac:(apply in_seq; lia)). rewrite He, Hf in H. rewrite bool_decide_eq_false_2 in H by done.
  assert (needs_orderb (ev_op e) (ev_op f) = true) as En. { destruct (ev_op e), (ev_op f); cbn in *; try done. by apply bool_decide_eq_true. }
  rewrite En in H. cbn [negb orb] in H. by apply (hbb_sound 4).
Qed.

Definition steps (n : nat) (t : nat) : list crun := replicate n (RStep t).
(** Threads 1 and 2 make writers and record; both are joined with thread 0, which flushes registry 7 and starts them again, and thread 3
    flushes registry 8 after them too, beside thread 0. *)
Definition ex83 : list crun :=
  [RStart 1 OWriter; RStart 2 OWriter; RStep 1; RStep 2] ++ steps 3 2 ++ steps 3 1 ++
  [RStart 1 (ORecord 7 true); RStart 2 (ORecord 7 true); RStep 1; RStep 2; RStep 2; RStep 1; RStart 1 (OSync 0); RStep 1; RStart 2 (OSync 0); RStep 2;
   RStart 1 (OSync 3); RStep 1; RStart 2 (OSync 3); RStep 2;
   RStart 0 (OFlush 7 true); RStart 3 (OFlush 8 true); RStep 0; RStep 3; RStep 0; RStep 0] ++ steps 7 0 ++ steps 9 3 ++
  [RStart 0 (OSync 1); RStep 0; RStart 3 (OSync 1); RStep 3; RStart 1 (ORecord 7 true); RStep 1; RStep 1].
Example ex_C83_ordered : ∃ s, creach s ∧ length (cs_trace s) = 40 ∧ user_orders (cs_trace s) ∧ ¬ data_race (cs_trace s).
Proof.
  destruct (cruns ex83 cinit) as [s|] eqn:E; [|by vm_compute in E]. assert (creach s) as Hr by (eapply cruns_reach; [apply rtc_refl|exact E]).
  assert (length (cs_trace s) = 40 ∧ user_ordersb (cs_trace s) = true) as [H1 H2].
  { assert ((λ s, (length (cs_trace s), user_ordersb (cs_trace s))) <$> cruns ex83 cinit = Some (40, true)) as Hc by (by vm_compute). rewrite E in Hc. cbn in Hc. by injection Hc. }
  exists s. split_and!; [done|done|by apply user_ordersb_sound|]. apply C83_ordered; [done|]. by apply user_ordersb_sound.
Qed.
(** One writer on thread 1; thread 2 flushes another registry. *)
Example ex_C83_flush : ∃ s, creach s ∧ cs_lock s = None ∧ 1 ∈ cs_bufs s ∧ cs_prog s 1 = (OWriter, []) ∧ cs_prog s 2 = (OWriter, []).
Proof.
  set (l := RStart 1 OWriter :: steps 4 1). destruct (cruns l cinit) as [s|] eqn:E; [|by vm_compute in E]. assert (creach s) as Hr by (eapply cruns_reach; [apply rtc_refl|exact E]).
  exists s. split; [done|]. assert ((λ s, (cs_lock s, cs_bufs s, cs_prog s 1, cs_prog s 2)) <$> cruns l cinit = Some (None, [1], (OWriter, []), (OWriter, []))) as Hc by (by vm_compute).
  rewrite E in Hc. cbn in Hc. injection Hc as -> -> -> ->. split_and!; try done. by left.
Qed.

Print Assumptions C83_ordered.
Print Assumptions C83_recording.
Print Assumptions C83_flush_refuted.
Print Assumptions C83_sync_refuted.
