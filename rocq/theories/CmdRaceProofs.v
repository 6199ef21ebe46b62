(** Invariants of the threads that record and flush commands. *)
From Verif Require Import Base CmdRace.

Lemma upd_same p t x : upd p t x t = x.
Proof. unfold upd. by rewrite decide_True. Qed.
Lemma upd_other p t x u : u ≠ t → upd p t x u = p u.
Proof. intros H. unfold upd. by rewrite decide_False. Qed.

(** What is left of the operation of thread [t]. *)
Definition shape (lk : option nat) (bufs : list nat) (t : nat) (o : cop) (as_ : list cact) : Prop :=
  match o with
  | OWriter => (lk ≠ Some t ∧ as_ = []) ∨ (lk ≠ Some t ∧ t ∉ bufs ∧ (as_ = [CAcc (LBuf t) true; CLock; CRegister; CUnlock] ∨ as_ = [CLock; CRegister; CUnlock])) ∨
      (lk = Some t ∧ t ∉ bufs ∧ as_ = [CRegister; CUnlock]) ∨ (lk = Some t ∧ as_ = [CUnlock])
  | ORecord r _ => lk ≠ Some t ∧ Forall (λ a, a = CAcc (LReg r) false ∨ a = CAcc (LBuf t) true) as_
  | OFlush r w => (lk ≠ Some t ∧ (as_ = [] ∨ as_ = [CAcc (LReg r) w; CLock; CPlay r; CUnlock] ∨ as_ = [CLock; CPlay r; CUnlock])) ∨
      (lk = Some t ∧ (as_ = [CPlay r; CUnlock] ∨ ∃ l, as_ = l ++ [CUnlock] ∧ Forall (λ a, (∃ b v, a = CAcc (LBuf b) v ∧ b ∈ bufs) ∨ a = CAcc (LReg r) true) l))
  | OSync u => lk ≠ Some t ∧ (as_ = [] ∨ as_ = [CSync u])
  end.
Definition shapes (s : cstate) : Prop := ∀ t, shape (cs_lock s) (cs_bufs s) t (cs_prog s t).1 (cs_prog s t).2.

Lemma shape_lock lk lk' bufs t o as_ : (lk = Some t ↔ lk' = Some t) → shape lk bufs t o as_ → shape lk' bufs t o as_.
Proof. intros E. destruct o; cbn [shape]; tauto. Qed.
Lemma shape_bufs lk bufs bufs' t o as_ : (∀ b, b ∈ bufs → b ∈ bufs') → (t ∈ bufs' → t ∈ bufs) → shape lk bufs t o as_ → shape lk bufs' t o as_.
Proof.
  intros H1 H2. destruct o as [|r rd|r w|u]; cbn [shape]; [tauto|tauto| |tauto]. intros [H|[Hl [H|(l & E & Hf)]]]; [by left|right; split; [done|]; by left|].
  right. split; [done|]. right. exists l. split; [done|]. eapply Forall_impl; [exact Hf|]. intros a [(b & v & ? & ?)|?]; [left; exists b, v; auto|by right].
Qed.

(** What a step adds to the trace. *)
Definition adds (lk lk' : option nat) (bufs bufs' : list nat) (t : nat) (o : cop) (a : cact) : Prop :=
  (a = CLock ∧ lk = None ∧ lk' = Some t ∧ bufs' = bufs) ∨
  (a = CUnlock ∧ lk = Some t ∧ lk' = None ∧ bufs' = bufs) ∨
  (a = CRegister ∧ lk = Some t ∧ lk' = lk ∧ bufs' = bufs ++ [t]) ∨
  (lk' = lk ∧ bufs' = bufs ∧
    ((∃ r, a = CPlay r ∧ lk = Some t) ∨
     (∃ r w b v, o = OFlush r w ∧ a = CAcc (LBuf b) v ∧ b ∈ bufs ∧ lk = Some t) ∨
     (o = OWriter ∧ a = CAcc (LBuf t) true ∧ t ∉ bufs) ∨
     (∃ r rd, o = ORecord r rd ∧ (a = CAcc (LBuf t) true ∨ a = CAcc (LReg r) false)) ∨
     (∃ r w v, o = OFlush r w ∧ a = CAcc (LReg r) v) ∨
     (∃ u, a = CSync u))).

Lemma shape_step s s' : shapes s → cstep s s' →
  shapes s' ∧ ((cs_lock s' = cs_lock s ∧ cs_bufs s' = cs_bufs s ∧ cs_trace s' = cs_trace s) ∨
    ∃ t o a, cs_trace s' = cs_trace s ++ [CEv t o a] ∧ adds (cs_lock s) (cs_lock s') (cs_bufs s) (cs_bufs s') t o a).
Proof.
  intros Hsh Hs. inversion Hs as [p lk bufs tr t o' o Hp Hm|p lk bufs tr t o l w rest Hp|p bufs tr t o rest Hp|p lk bufs tr t o rest Hp|p lk bufs tr t o rest Hp|p lk bufs tr t o r rest sm Hp|p lk bufs tr t o u rest Hp]; subst; clear Hs;
    pose proof (Hsh t) as Ht; cbn [cs_lock cs_bufs cs_prog cs_trace] in *; rewrite Hp in Ht; cbn [fst snd] in Ht.
  - split; [|by left]. assert (lk ≠ Some t) as Hlk. { destruct o' as [|r rd|r w|u]; cbn in Ht; [naive_solver|naive_solver| |naive_solver]. destruct Ht as [[? _]|[? [?|(l & E & _)]]]; [done|done|by destruct l]. }
    intros u. cbn [cs_prog cs_lock cs_bufs]. destruct (decide (u = t)) as [->|Hne]; [|rewrite upd_other by done; apply Hsh]. rewrite upd_same. cbn [fst snd].
    destruct o as [|r rd|r w|v]; cbn [op_acts shape].
    + case_bool_decide; [by left|]. right. left. naive_solver.
    + split; [done|]. destruct rd; repeat constructor; naive_solver.
    + left. naive_solver.
    + naive_solver.
  - assert (∀ x, shape lk bufs t o rest → shapes (CSt (upd p t (o, rest)) lk bufs x)) as Hnew.
    { intros x Hx u. cbn [cs_prog cs_lock cs_bufs]. destruct (decide (u = t)) as [->|Hne]; [by rewrite upd_same|rewrite upd_other by done; apply Hsh]. }
    destruct o as [|r rd|r w'|v]; cbn [shape] in Ht.
    + destruct Ht as [[_ ?]|[(Hlk & Hb & [?|?])|[(_ & _ & ?)|[_ ?]]]]; simplify_eq. split; [apply Hnew; cbn; naive_solver|]. right. eexists _, _, _. split; [done|]. unfold adds. naive_solver.
    + destruct Ht as [Hlk Hf]. apply Forall_cons in Hf as [Ha Hf]. split; [by apply Hnew|]. right. eexists _, _, _. split; [done|]. unfold adds. do 3 right. split_and!; [done|done|]. do 3 right. left. naive_solver.
    + destruct Ht as [[Hlk [?|[?|?]]]|[Hlk [?|(q & E & Hf)]]]; simplify_eq.
      * split; [apply Hnew; cbn; naive_solver|]. right. eexists _, _, _. split; [done|]. unfold adds. do 3 right. split_and!; [done|done|]. do 4 right. left. naive_solver.
      * destruct q as [|a q]; [done|]. cbn in E. injection E as <- ->. apply Forall_cons in Hf as [Ha Hf]. split; [apply Hnew; cbn; right; split; [done|]; right; by eexists|].
        right. eexists _, _, _. split; [done|]. unfold adds. do 3 right. split_and!; [done|done|]. destruct Ha as [(b & v & ? & ?)|?]; simplify_eq; [right; left|do 4 right; left]; naive_solver.
    + destruct Ht as [_ [?|?]]; simplify_eq.
  - assert (∀ u, u ≠ t → shape (Some t) bufs u (upd p t (o, rest) u).1 (upd p t (o, rest) u).2) as Hnew.
    { intros u Hne. rewrite upd_other by done. eapply shape_lock; [|apply (Hsh u)]. cbn. split; congruence. }
    split; [|right; eexists _, _, _; split; [done|]; by left].
    intros u. cbn [cs_prog cs_lock cs_bufs]. destruct (decide (u = t)) as [->|Hne]; [|by apply Hnew]. rewrite upd_same. cbn [fst snd]. destruct o as [|r rd|r w'|v]; cbn [shape] in *.
    + destruct Ht as [[_ ?]|[(Hlk & Hb & [?|?])|[(_ & _ & ?)|[_ ?]]]]; simplify_eq. naive_solver.
    + destruct Ht as [Hlk Hf]. apply Forall_cons in Hf as [[?|?] Hf]; done.
    + destruct Ht as [[Hlk [?|[?|?]]]|[Hlk _]]; simplify_eq. right. naive_solver.
    + destruct Ht as [_ [?|?]]; simplify_eq.
  - assert (lk = Some t ∧ shape None bufs t o rest) as [-> Hnow].
    { destruct o as [|r rd|r w'|v]; cbn [shape] in *.
      - destruct Ht as [[_ ?]|[(Hlk & Hb & [?|?])|[(_ & _ & ?)|[? ?]]]]; simplify_eq. split; [done|]. by left.
      - destruct Ht as [Hlk Hf]. apply Forall_cons in Hf as [[?|?] Hf]; done.
      - destruct Ht as [[Hlk [?|[?|?]]]|[Hlk [?|(q & E & Hf)]]]; simplify_eq. split; [done|]. left. split; [done|]. left. destruct q as [|a q]; cbn in E; [by simplify_eq|].
        injection E as <- ->. apply Forall_cons in Hf as [[(b & v & ? & ?)|?] _]; done.
      - destruct Ht as [_ [?|?]]; simplify_eq. }
    split; [|right; eexists _, _, _; split; [done|]; right; by left].
    intros u. cbn [cs_prog cs_lock cs_bufs]. destruct (decide (u = t)) as [->|Hne]; [by rewrite upd_same|]. rewrite upd_other by done.
    eapply shape_lock; [|apply (Hsh u)]. cbn. split; congruence.
  - assert (lk = Some t ∧ t ∉ bufs ∧ o = OWriter ∧ rest = [CUnlock]) as (-> & Hb & -> & ->).
    { destruct o as [|r rd|r w'|v]; cbn [shape] in *.
      - destruct Ht as [[_ ?]|[(Hlk & Hb & [?|?])|[(? & ? & ?)|[? ?]]]]; by simplify_eq.
      - destruct Ht as [Hlk Hf]. apply Forall_cons in Hf as [[?|?] Hf]; done.
      - destruct Ht as [[Hlk [?|[?|?]]]|[Hlk [?|(q & E & Hf)]]]; simplify_eq. destruct q as [|a q]; cbn in E; [by simplify_eq|].
        injection E as <- ->. apply Forall_cons in Hf as [[(b & v & ? & ?)|?] _]; done.
      - destruct Ht as [_ [?|?]]; simplify_eq. }
    split; [|right; eexists _, _, _; split; [done|]; right; right; by left].
    intros u. cbn [cs_prog cs_lock cs_bufs]. destruct (decide (u = t)) as [->|Hne]; [rewrite upd_same; cbn; naive_solver|]. rewrite upd_other by done.
    eapply shape_bufs; [| |apply (Hsh u)]; cbn; intros *; rewrite elem_of_app, elem_of_list_singleton; tauto.
  - assert (lk = Some t ∧ ∃ w, o = OFlush r w ∧ rest = [CUnlock]) as (-> & w & -> & ->).
    { destruct o as [|r' rd|r' w'|v]; cbn [shape] in *.
      - destruct Ht as [[_ ?]|[(Hlk & Hb & [?|?])|[(? & ? & ?)|[? ?]]]]; by simplify_eq.
      - destruct Ht as [Hlk Hf]. apply Forall_cons in Hf as [[?|?] Hf]; done.
      - destruct Ht as [[Hlk [?|[?|?]]]|[Hlk [?|(q & E & Hf)]]]; simplify_eq; [naive_solver|]. destruct q as [|a q]; cbn in E; [by simplify_eq|].
        injection E as <- ->. apply Forall_cons in Hf as [[(b & v & ? & ?)|?] _]; done.
      - destruct Ht as [_ [?|?]]; simplify_eq. }
    split; [|right; eexists _, _, _; split; [done|]; do 3 right; split_and!; [done|done|left; by eexists]].
    intros u. cbn [cs_prog cs_lock cs_bufs]. destruct (decide (u = t)) as [->|Hne]; [|rewrite upd_other by done; apply Hsh]. rewrite upd_same. cbn [fst snd shape].
    right. split; [done|]. right. eexists. split; [done|]. apply Forall_forall. intros a (b & Ha & Hb)%elem_of_list_bind. unfold play_acts in Ha.
    apply elem_of_cons in Ha as [->|Ha]; [left; naive_solver|]. destruct (sm b); [|by apply elem_of_nil in Ha].
    apply elem_of_cons in Ha as [->|Ha]; [left; naive_solver|]. apply elem_of_list_singleton in Ha. by right.
  - assert (lk ≠ Some t ∧ o = OSync u ∧ rest = []) as (Hlk & -> & ->).
    { destruct o as [|r' rd|r' w'|v]; cbn [shape] in *.
      - destruct Ht as [[_ ?]|[(Hlk & Hb & [?|?])|[(? & ? & ?)|[? ?]]]]; by simplify_eq.
      - destruct Ht as [Hlk Hf]. apply Forall_cons in Hf as [[?|?] Hf]; done.
      - destruct Ht as [[Hlk [?|[?|?]]]|[Hlk [?|(q & E & Hf)]]]; simplify_eq. destruct q as [|a q]; cbn in E; [by simplify_eq|].
        injection E as <- ->. apply Forall_cons in Hf as [[(b & v & ? & ?)|?] _]; done.
      - destruct Ht as [? [?|?]]; by simplify_eq. }
    split; [|right; eexists _, _, _; split; [done|]; do 3 right; split_and!; [done|done|naive_solver]].
    intros v. cbn [cs_prog cs_lock cs_bufs]. destruct (decide (v = t)) as [->|Hne]; [rewrite upd_same; cbn; naive_solver|rewrite upd_other by done; apply Hsh].
Qed.

(** * Happens-before *)
Lemma hb_edge_app tr l i j : hb_edge tr i j → hb_edge (tr ++ l) i j.
Proof. intros (Hlt & e & f & He & Hf & H). split; [done|]. exists e, f. split_and!; [by apply lookup_app_l_Some|by apply lookup_app_l_Some|done]. Qed.
Lemma hb_app tr l i j : hb tr i j → hb (tr ++ l) i j.
Proof. unfold hb. induction 1 as [|i j k H _ IH]; [apply tc_once; by apply hb_edge_app|]. eapply tc_l; [by apply hb_edge_app|done]. Qed.
Lemma hb_thread tr i j e f : i < j → tr !! i = Some e → tr !! j = Some f → ev_thread e = ev_thread f → hb tr i j.
Proof. intros. apply tc_once. split; [done|]. exists e, f. naive_solver. Qed.
Lemma hb_mutex tr i j e f : i < j → tr !! i = Some e → tr !! j = Some f → ev_act e = CUnlock → ev_act f = CLock → hb tr i j.
Proof. intros. apply tc_once. split; [done|]. exists e, f. naive_solver. Qed.
Lemma hb_trans tr i j k : hb tr i j → hb tr j k → hb tr i k.
Proof. unfold hb. intros. by etrans. Qed.
Lemma lookup_snoc (tr : list cevent) e i x : (tr ++ [e]) !! i = Some x → (i < length tr ∧ tr !! i = Some x) ∨ (i = length tr ∧ x = e).
Proof. intros [H|[Hge H]]%lookup_app_Some; [left; split; [by eapply lookup_lt_Some|done]|right]. apply list_lookup_singleton_Some in H as [H <-]. split; [lia|done]. Qed.
Lemma lookup_last (tr : list cevent) e : (tr ++ [e]) !! length tr = Some e.
Proof. by apply list_lookup_middle. Qed.

(** * The trace *)
Definition flush_touch (b : nat) (e : cevent) : Prop := ∃ r w v, ev_op e = OFlush r w ∧ ev_act e = CAcc (LBuf b) v.
Definition in_cs (e : cevent) : Prop := ev_act e = CRegister ∨ (∃ r, ev_act e = CPlay r) ∨ ∃ b, flush_touch b e.
Definition construct (b : nat) (e : cevent) : Prop := ev_op e = OWriter ∧ ev_thread e = b ∧ ev_act e = CAcc (LBuf b) true.
Definition registers (b : nat) (e : cevent) : Prop := ev_thread e = b ∧ ev_act e = CRegister.
Record trace_inv (lk : option nat) (bufs : list nat) (tr : list cevent) : Prop := {
  ti_buf i e b v : tr !! i = Some e → ev_act e = CAcc (LBuf b) v → construct b e ∨ (ev_thread e = b ∧ ∃ r rd, ev_op e = ORecord r rd) ∨ (flush_touch b e ∧ b ∈ bufs);
  ti_list i e v : tr !! i = Some e → ev_act e ≠ CAcc LList v;
  ti_reg i e r v : tr !! i = Some e → ev_act e = CAcc (LReg r) v → (v = false ∧ ∃ rd, ev_op e = ORecord r rd) ∨ ∃ w, ev_op e = OFlush r w;
  ti_out i e : tr !! i = Some e → in_cs e → lk = Some (ev_thread e) ∨ ∃ k f, i < k ∧ tr !! k = Some f ∧ ev_thread f = ev_thread e ∧ ev_act f = CUnlock;
  ti_held t : lk = Some t → ∃ p e, tr !! p = Some e ∧ ev_thread e = t ∧ ev_act e = CLock ∧ ∀ k f, tr !! k = Some f → ev_act f = CUnlock → k < p;
  ti_cs i j e f : i < j → tr !! i = Some e → tr !! j = Some f → in_cs e → in_cs f → ev_thread e ≠ ev_thread f → hb tr i j;
  ti_made i e b : tr !! i = Some e → construct b e → b ∈ bufs → ∃ k f, i < k ∧ tr !! k = Some f ∧ registers b f;
  ti_seen i j e f b : tr !! i = Some e → construct b e → tr !! j = Some f → flush_touch b f → ∃ k g, i < k ∧ k < j ∧ tr !! k = Some g ∧ registers b g }.

Lemma trace_inv_init : trace_inv None [] [].
Proof. split; intros; done. Qed.

Lemma cs_now lk bufs tr t e : trace_inv lk bufs tr → lk = Some t → ev_thread e = t → ∀ i f, tr !! i = Some f → in_cs f → ev_thread f ≠ t → hb (tr ++ [e]) i (length tr).
Proof.
  intros H Hlk Het i f Hf Hcs Hne. destruct (ti_out _ _ _ H i f Hf Hcs) as [E|(k & g & Hik & Hg & Hgt & Hgu)]; [congruence|].
  destruct (ti_held _ _ _ H t Hlk) as (p & l & Hp & Hpt & Hpl & Hall). specialize (Hall k g Hg Hgu).
  eapply hb_trans; [apply hb_app; eapply (hb_thread tr i k); [done|done|done|done]|].
  eapply hb_trans; [apply hb_app; by eapply (hb_mutex tr k p)|].
  eapply hb_thread; [by eapply lookup_lt_Some|by apply lookup_app_l_Some|apply lookup_last|congruence].
Qed.

Lemma trace_step lk lk' bufs bufs' tr t o a : trace_inv lk bufs tr → adds lk lk' bufs bufs' t o a → trace_inv lk' bufs' (tr ++ [CEv t o a]).
Proof.
  intros H Ha. set (e := CEv t o a).
  assert (∀ b, b ∈ bufs → b ∈ bufs') as Hmono. { unfold adds in Ha. intros b Hb. destruct Ha as [(_ & _ & _ & ->)|[(_ & _ & _ & ->)|[(_ & _ & _ & ->)|(_ & -> & _)]]]; try done. apply elem_of_app. by left. }
  assert (in_cs e → lk = Some t ∧ lk' = Some t) as Hcs.
  { intros [E|[[r E]|(b & r & w & v & E1 & E2)]]; cbn in *; subst; unfold adds in Ha; naive_solver. }
  split.
  - intros i x b v [[Hi Hx]|[-> ->]]%lookup_snoc Hact.
    + destruct (ti_buf _ _ _ H i x b v Hx Hact) as [?|[?|[? ?]]]; naive_solver.
    + cbn in Hact. subst a. unfold adds in Ha. destruct Ha as [Ha|[Ha|[Ha|(-> & -> & Ha)]]]; [naive_solver..|].
      destruct Ha as [?|[(r & w & b' & v' & -> & E & Hb & _)|[(-> & E & Hb)|[(r & rd & -> & [E|E])|[?|?]]]]]; [naive_solver| | | |naive_solver|naive_solver|naive_solver]; simplify_eq.
      * right. right. split; [|done]. by eexists _, _, _.
      * by left.
      * right. left. naive_solver.
  - intros i x v [[Hi Hx]|[-> ->]]%lookup_snoc; [by eapply (ti_list _ _ _ H)|]. cbn. intros ->. unfold adds in Ha. naive_solver.
  - intros i x r v [[Hi Hx]|[-> ->]]%lookup_snoc Hact; [by eapply (ti_reg _ _ _ H)|]. cbn in Hact. subst a. cbn. unfold adds in Ha. naive_solver.
  - intros i x [[Hi Hx]|[-> ->]]%lookup_snoc Hc; [|left; by apply Hcs].
    destruct (ti_out _ _ _ H i x Hx Hc) as [E|(k & f & Hik & Hf & ? & ?)]; [|right; exists k, f; split_and!; try done; by apply lookup_app_l_Some].
    unfold adds in Ha. destruct Ha as [(-> & E' & _)|[(-> & E' & -> & _)|[(-> & E' & -> & _)|(-> & _)]]]; [congruence| |by left|by left].
    right. exists (length tr), e. split_and!; [done|apply lookup_last|cbn; congruence|done].
  - intros u Hu. unfold adds in Ha. destruct Ha as [(-> & -> & -> & ->)|[(-> & E' & -> & _)|Ha]]; [|done|].
    + injection Hu as <-. exists (length tr), e. split_and!; [apply lookup_last|done|done|]. intros k f [[Hk _]|[-> ->]]%lookup_snoc Hf; [done|done].
    + assert (lk' = lk ∧ a ≠ CUnlock) as [-> Hau] by (naive_solver congruence). destruct (ti_held _ _ _ H u Hu) as (p & l & Hp & ? & ? & Hall).
      exists p, l. split_and!; [by apply lookup_app_l_Some|done|done|]. intros k f [[Hk Hf]|[-> ->]]%lookup_snoc Hfu; [by eapply Hall|done].
  - intros i j x y Hij [[Hi Hx]|[-> ->]]%lookup_snoc [[Hj Hy]|[-> ->]]%lookup_snoc Hcx Hcy Hne; [|..|lia].
    + apply hb_app. by eapply (ti_cs _ _ _ H i j x y).
    + eapply (cs_now lk bufs tr t); [done|by apply Hcs|done|done|done|]. done.
    + lia.
  - intros i x b [[Hi Hx]|[-> ->]]%lookup_snoc Hcon Hb.
    + destruct (decide (b ∈ bufs)) as [Hb'|Hb'].
      * destruct (ti_made _ _ _ H i x b Hx Hcon Hb') as (k & f & ? & ? & ?). exists k, f. split_and!; [done|by apply lookup_app_l_Some|done].
      * unfold adds in Ha. destruct Ha as [(_ & _ & _ & ->)|[(_ & _ & _ & ->)|[(-> & _ & _ & ->)|(_ & -> & _)]]]; try done.
        apply elem_of_app in Hb as [?|<-%elem_of_list_singleton]; [done|]. exists (length tr), e. split_and!; [done|apply lookup_last|by split].
    + destruct Hcon as (E1 & E2 & E3). cbn in *. subst. unfold adds in Ha. naive_solver.
  - intros i j x y b [[Hi Hx]|[-> ->]]%lookup_snoc Hcon [[Hj Hy]|[-> ->]]%lookup_snoc Hft.
    + destruct (ti_seen _ _ _ H i j x y b Hx Hcon Hy Hft) as (k & g & ? & ? & ? & ?). exists k, g. split_and!; [done|done|by apply lookup_app_l_Some|done].
    + assert (b ∈ bufs) as Hb. { destruct Hft as (r & w & v & E1 & E2). cbn in *. subst. unfold adds in Ha. naive_solver. }
      destruct (ti_made _ _ _ H i x b Hx Hcon Hb) as (k & f & ? & Hf & ?). exists k, f. split_and!; [done|by eapply lookup_lt_Some|by apply lookup_app_l_Some|done].
    + exfalso. assert (b ∉ bufs) as Hb. { destruct Hcon as (E1 & E2 & E3). cbn in *. subst. unfold adds in Ha. naive_solver. }
      destruct Hft as (r & w & v & E1 & E2). destruct (ti_buf _ _ _ H j y b v Hy E2) as [(? & _)|[(_ & r' & rd & ?)|[_ ?]]]; [congruence|congruence|done].
    + exfalso. destruct Hcon as (E1 & _). destruct Hft as (r & w & v & E2 & _). congruence.
Qed.

Theorem reach_inv s : creach s → shapes s ∧ trace_inv (cs_lock s) (cs_bufs s) (cs_trace s).
Proof.
  unfold creach. intros Hr. remember cinit as s0 eqn:E. assert (shapes s0 ∧ trace_inv (cs_lock s0) (cs_bufs s0) (cs_trace s0)) as H0.
  { subst. split; [intros t; cbn; by left|apply trace_inv_init]. }
  clear E. induction Hr as [|s1 s2 s3 Hs _ IH]; [done|]. apply IH. destruct H0 as [Hsh Ht].
  destruct (shape_step _ _ Hsh Hs) as [Hsh' [(E1 & E2 & E3)|(t & o & a & E & Hadds)]]; (split; [done|]).
  - by rewrite E1, E2, E3.
  - rewrite E. by eapply trace_step.
Qed.
