From Verif Require Import Base Task ParallelFor PoolThrow.
Local Open Scope nat_scope.

Lemma xprog_ind' (P : xprog → Prop) : P XDone → (∀ m k, P k → P (XMark m k)) → P XThrow →
  (∀ elems k, Forall P elems → P k → P (XEach elems k)) → (∀ p h k, P p → P h → P k → P (XTry p h k)) → ∀ p, P p.
Proof.
  intros H1 H2 H3 H4 H5. fix IH 1. intros [|m k| |elems k|p h k]; [exact H1|apply H2, IH|exact H3| |apply H5; apply IH].
  apply H4; [|apply IH]. induction elems as [|e l IHl]; [constructor|constructor; [apply IH|exact IHl]].
Qed.

(** * Sequential meaning *)
Definition evs (l : list xprog) : list nat * bool := foldr (λ e r, x_then (x_eval e) r) ([], false) l.
Lemma eval_each elems k : x_eval (XEach elems k) = x_then (evs elems) (x_eval k).
Proof. cbn [x_eval]. f_equal. Qed.
Lemma then_assoc a b c : x_then (x_then a b) c = x_then a (x_then b c).
Proof. destruct a as [t []], b as [u []], c; unfold x_then; cbn; rewrite ?app_assoc; done. Qed.
Lemma then_nil r : x_then ([], false) r = r. Proof. by destruct r. Qed.
Lemma then_nil_r r : x_then r ([], false) = r. Proof. destruct r as [t []]; cbn; unfold x_then; cbn; by rewrite ?app_nil_r. Qed.
Lemma evs_app l l' : evs (l ++ l') = x_then (evs l) (evs l').
Proof. unfold evs. induction l as [|e l IH]; cbn [foldr app]; [by rewrite then_nil|]. by rewrite IH, then_assoc. Qed.

Lemma small_each n elems k : x_small n (XEach elems k) ↔ (n = 1 ∨ length elems < n) ∧ Forall (x_small n) elems ∧ x_small n k.
Proof.
  cbn [x_small]. assert ((fix go l := match l with [] => True | e :: l => x_small n e ∧ go l end) elems ↔ Forall (x_small n) elems) as ->; [|done].
  induction elems as [|e l IH]; [done|]. by rewrite Forall_cons, IH.
Qed.
Lemma batches_small n m : n = 1 ∨ m < n → pf_batches n m = None ∨ n = 1 ∧ pf_batches n m = Some [(0, m)].
Proof.
  unfold pf_batches. intros [->|H].
  - rewrite Nat.div_1_r. case_bool_decide; [by left|right]. split; [done|]. cbn. by case_bool_decide; [lia|].
  - left. rewrite Nat.div_small by done. by case_bool_decide; [|lia].
Qed.

(** * What is left to do *)
Definition plain (n : nat) (x : seg) : Prop := match x with SRun p => x_small n p | STry h => x_small n h | _ => False end.
(** [x] is true behind a throw. *)
Fixpoint after (l : list seg) (x : bool) : list nat * bool :=
  match l with
  | [] => ([], x)
  | SRun p :: l => if x then after l true else let r := x_eval p in (r.1 ++ (after l r.2).1, (after l r.2).2)
  | STry h :: l => if x then let r := x_eval h in (r.1 ++ (after l r.2).1, (after l r.2).2) else after l false
  | SSubmit _ bs _ :: l => if x then after l true else let r := evs (concat bs) in (r.1 ++ (after l r.2).1, (after l r.2).2)
  | SWait _ _ :: l => after l x
  end.
Definition andthen (r : list nat * bool) (f : bool → list nat * bool) : list nat * bool := (r.1 ++ (f r.2).1, (f r.2).2).
Fixpoint rest (st : list xframe) (x : bool) : list nat * bool :=
  match st with
  | [] => ([], x)
  | XFrame _ (XCode l) :: st => andthen (after l x) (rest st)
  | _ :: st => rest st x
  end.
Lemma andthen_assoc r f g : andthen (andthen r f) g = andthen r (λ x, andthen (f x) g).
Proof. unfold andthen. cbn. by rewrite app_assoc. Qed.
Lemma after_plain n l : Forall (plain n) l → (unwind_code l).1 = [] ∧
  match (unwind_code l).2 with
  | Some l' => after l true = after l' false ∧ Forall (plain n) l' ∧ ∃ h l1, l' = SRun h :: l1
  | None => after l true = ([], true)
  end.
Proof.
  induction 1 as [|[p|sc bs o|sc t|h] l Hp Hl IH]; try done; cbn. split; [done|]. split; [done|]. split; [by constructor|eauto].
Qed.
Lemma after_run p l : after (SRun p :: l) false = andthen (x_eval p) (after l).
Proof. done. Qed.
Lemma after_then a b l : andthen (x_then a b) (after l) = andthen a (λ x, if x then after l true else andthen b (after l)).
Proof. destruct a as [t []]; unfold andthen, x_then; cbn; [done|]. by rewrite app_assoc. Qed.
Lemma after_true p l : after (SRun p :: l) true = after l true. Proof. done. Qed.
Lemma after_elems es l : after ((SRun <$> es) ++ l) true = after l true.
Proof. induction es as [|e es IH]; [done|]. cbn. exact IH. Qed.
Lemma after_evs es l : after ((SRun <$> es) ++ l) false = andthen (evs es) (after l).
Proof.
  induction es as [|e es IH]; cbn [fmap list_fmap app]; [cbn; unfold andthen; cbn; by destruct (after l false)|].
  rewrite after_run. cbn [evs foldr]. rewrite after_then. unfold andthen at 1 2. destruct (x_eval e) as [t []]; cbn [fst snd]; [by rewrite after_elems|]. by rewrite IH.
Qed.

(** * One worker, or small ranges *)
Section one.
Context (n : nat).
Definition is_root (ts : list xtask) (t sc : nat) : Prop := ∃ x, ts !! t = Some x ∧ t_parent (xt_task x) = None ∧ xt_scope x = sc.
Definition ctr_is (ts : list xtask) (t : nat) (c : N) : Prop := ∃ x, ts !! t = Some x ∧ t_ctr (xt_task x) = c.
Definition running (ts : list xtask) (o : option nat) : Prop := match o with None => True | Some t => ctr_is ts t 1 end.
Definition lt_opt (o : option nat) (t : nat) : Prop := match o with None => True | Some u => u < t end.
Inductive below (ts : list xtask) : option nat → list xframe → Prop :=
  | BelowMain : below ts None []
  | BelowTask t o sc l st : is_root ts t sc → Forall (plain n) l → lt_opt o t → running ts o → below ts o st →
      below ts (Some t) (XFrame o (XCode (SWait sc t :: l)) :: st).
Definition head_ok (ts : list xtask) (q : list nat) (l : list seg) : Prop :=
  match l with
  | SSubmit sc bs None :: l => q = [] ∧ n = 1 ∧ (∃ b, bs = [b] ∧ Forall (x_small n) b) ∧ Forall (plain n) l
  | SSubmit sc bs (Some t) :: l => q = [t] ∧ n = 1 ∧ bs = [] ∧ is_root ts t sc ∧ ctr_is ts t 1 ∧ Forall (plain n) l
  | SWait sc t :: l => is_root ts t sc ∧ Forall (plain n) l ∧ (n = 1 ∧ q = [t] ∧ ctr_is ts t 1 ∨ q = [] ∧ ctr_is ts t 0)
  | l => q = [] ∧ Forall (plain n) l
  end.
Definition newer (ts : list xtask) (o : option nat) (q : list nat) : Prop :=
  Forall (λ t, lt_opt o t ∧ ∃ x, ts !! t = Some x ∧ Forall (x_small n) (xt_body x)) q.
Definition top_ok (ts : list xtask) (q : list nat) (st : list xframe) : Prop :=
  match st with
  | [] => q = []
  | XFrame o (XCode l) :: st => below ts o st ∧ running ts o ∧ head_ok ts q l ∧ newer ts o q
  | XFrame o (XSub t) :: st => below ts o st ∧ o = Some t ∧ q = [] ∧ ctr_is ts t 1
  | XFrame o (XCheck t) :: st => below ts o st ∧ o = Some t ∧ q = [] ∧ ctr_is ts t 0
  end.
Definition seg_scope (x : seg) : list nat := match x with SSubmit sc _ _ | SWait sc _ => [sc] | _ => [] end.
Definition fr_scopes (f : xframe) : list nat := match xf_pc f with XCode l => l ≫= seg_scope | _ => [] end.
Definition scopes (st : list xframe) : list nat := st ≫= fr_scopes.
Definition bodies_of (ts : list xtask) (q : list nat) : list xprog :=
  concat ((λ t, match ts !! t with Some x => xt_body x | None => [] end) <$> q).
Definition residual (ts : list xtask) (q : list nat) (st : list xframe) : list nat * bool := andthen (evs (bodies_of ts q)) (rest st).
Definition sc_ok (m : nat) (l : list nat) : Prop := NoDup l ∧ Forall (λ c, c < m) l.
Record ainv (p : xprog) (s : xpool) : Prop := {
  a_live : x_end s = None;
  a_all : ∃ q st others, x_workers s = XWorker q st :: others ∧ length (x_workers s) = n ∧ Forall (λ w, w = XWorker [] []) others ∧
    top_ok (x_tasks s) q st ∧ sc_ok (x_next s) (scopes st ++ x_dead s) ∧
    x_eval p = andthen (x_trace s, false) (λ _, residual (x_tasks s) q st) }.
Definition goal (p : xprog) (s : xpool) : Prop := ainv p s ∨ x_end s = Some Terminated ∧ x_eval p = (x_trace s, true).

Lemma below_mono ts ts' o st : (∀ u x, ts !! u = Some x → ∃ x', ts' !! u = Some x' ∧ t_parent (xt_task x') = t_parent (xt_task x) ∧ xt_scope x' = xt_scope x ∧
    (match o with Some t => u < t | None => False end → t_ctr (xt_task x') = t_ctr (xt_task x))) → below ts o st → below ts' o st.
Proof.
  intros H Hb. induction Hb as [|t o sc l st Hr Hl Ht Hrun Hb IH]; [constructor|].
  constructor; try done.
  - destruct Hr as (x & Hx & Hp & Hs). destruct (H _ _ Hx) as (x' & Hx' & Hp' & Hs' & _). exists x'. by rewrite Hp', Hs'.
  - destruct o as [u|]; [|done]. destruct Hrun as (x & Hx & Hc). destruct (H _ _ Hx) as (x' & Hx' & _ & _ & Hc'). exists x'. split; [done|]. by rewrite Hc'.
  - apply IH. intros u x Hx. destruct (H _ _ Hx) as (x' & Hx' & Hp' & Hs' & Hc'). exists x'. split; [done|]. split; [done|]. split; [done|].
    intros Hu. apply Hc'. destruct o as [o|]; [|done]. cbn in Ht. lia.
Qed.
Lemma below_alter ts o st t f : lt_opt o t ∨ o = Some t → (∀ x, t_parent (xt_task (f x)) = t_parent (xt_task x) ∧ xt_scope (f x) = xt_scope x) →
  below ts o st → below (alter f t ts) o st.
Proof.
  intros Ht Hf. apply below_mono. intros u x Hx. destruct (decide (t = u)) as [->|N].
  - exists (f x). rewrite list_lookup_alter, Hx. split; [done|]. destruct (Hf x) as [-> ->]. split; [done|]. split; [done|]. intros Hu. destruct o as [o|]; [|done]. destruct Ht as [Ht|Ht]; [cbn in Ht; lia|injection Ht as ->; lia].
  - exists x. rewrite list_lookup_alter_ne by done. done.
Qed.
Lemma below_app ts o st l : below ts o st → below (ts ++ l) o st.
Proof. apply below_mono. intros u x Hx. exists x. split; [|done]. by apply lookup_app_l_Some. Qed.
Lemma plain_scopes l : Forall (plain n) l → l ≫= seg_scope = [].
Proof. induction 1 as [|[]]; try done. Qed.
Lemma lives_below s t o st : below (x_tasks s) o st → o = Some t → NoDup (scopes st ++ x_dead s) → x_lives s (Some t) = true.
Proof.
  intros Hb -> Hnd. inversion Hb as [|? o' sc l st' (x & Hx & _ & <-)]; subst. cbn. rewrite Hx. apply bool_decide_eq_true_2. intros Hd.
  apply NoDup_app in Hnd as (_ & Hd' & _). apply (Hd' (xt_scope x)); [|done]. cbn. left.
Qed.

Lemma residual_nil ts st : residual ts [] st = rest st false.
Proof. unfold residual, andthen. cbn. by destruct (rest st false). Qed.
Lemma trace_snoc (tr : list nat) (m : nat) (r : list nat * bool) : andthen (tr ++ [m], false) (λ _, r) = andthen (tr, false) (λ _, (m :: r.1, r.2)).
Proof. unfold andthen. cbn. by rewrite <- app_assoc. Qed.
Lemma ctr_alter_same ts t f c : (∀ x, t_ctr (xt_task (f x)) = t_ctr (xt_task x)) → ctr_is ts t c → ctr_is (alter f t ts) t c.
Proof. intros Hf (x & Hx & Hc). exists (f x). by rewrite list_lookup_alter, Hx, Hf. Qed.
Lemma plain_run l : Forall (plain n) l → (∀ ts q, q = [] → head_ok ts q l).
Proof. intros Hl ts q ->. destruct l as [|x l]; [done|]. pose proof Hl as [Hx _]%Forall_cons. by destruct x. Qed.
Lemma unwind_below ts o st l : below ts o st → running ts o → Forall (plain n) l →
  let r := unwind (XFrame o (XCode l) :: st) in
  match r.2 with
  | [] => rest (XFrame o (XCode l) :: st) true = ([], true)
  | st' => rest (XFrame o (XCode l) :: st) true = rest st' false ∧ top_ok ts [] st' ∧ scopes (XFrame o (XCode l) :: st) = r.1 ++ scopes st'
  end.
Proof.
  intros Hb. revert l. induction Hb as [|t o sc l' st Hr Hl' Ht Hrun Hb IH]; intros l Hro Hl.
  - cbn [unwind]. destruct (after_plain n l Hl) as [E1 E2]. destruct (unwind_code l) as [ds [l1|]]; cbn [fst snd] in *; subst ds.
    + destruct E2 as (E2 & Hl1 & h & l2 & ->). split; [|split].
      * cbn [rest]. unfold andthen. by rewrite E2.
      * split; [constructor|]. split; [done|]. split; [by apply plain_run|constructor].
      * cbn. rewrite !(plain_scopes _ Hl). apply Forall_cons in Hl1 as [_ Hl1]. by rewrite (plain_scopes _ Hl1).
    + cbn [app]. cbn [rest]. unfold andthen. by rewrite E2.
  - cbn [unwind]. destruct (after_plain n l Hl) as [E1 E2]. destruct (unwind_code l) as [ds [l1|]]; cbn [fst snd] in *; subst ds.
    + destruct E2 as (E2 & Hl1 & h & l2 & ->). split; [|split].
      * cbn [rest]. unfold andthen. by rewrite E2.
      * split; [by constructor|]. split; [done|]. split; [by apply plain_run|constructor].
      * cbn. rewrite !(plain_scopes _ Hl). apply Forall_cons in Hl1 as [_ Hl1]. by rewrite (plain_scopes _ Hl1).
    + specialize (IH l' Hrun Hl'). cbn [unwind unwind_code] in IH |- *. destruct (after_plain n l' Hl') as [E1' _].
      destruct (unwind_code l') as [ds [l1|]] eqn:El; cbn [fst snd] in *; subst ds; cbn [app].
      * destruct IH as (Hres & Htop & Hsc). split; [|split; [done|]].
        -- cbn [rest]. unfold andthen at 1. rewrite E2. cbn [fst snd app]. cbn [rest] in Hres. rewrite <- Hres. cbn [after]. by destruct (andthen _ _).
        -- cbn in Hsc |- *. rewrite (plain_scopes _ Hl). cbn [app]. by rewrite Hsc.
      * destruct (unwind st) as [ds st']. cbn [fst snd app] in *. destruct st' as [|f st'].
        -- cbn [rest]. unfold andthen at 1. rewrite E2. cbn [fst snd app]. cbn [rest] in IH. cbn [after]. by destruct (andthen _ _).
        -- destruct IH as (Hres & Htop & Hsc). split; [|split; [done|]].
           ++ cbn [rest]. unfold andthen at 1. rewrite E2. cbn [fst snd app]. cbn [rest] in Hres. rewrite <- Hres. cbn [after]. by destruct (andthen _ _).
           ++ cbn in Hsc |- *. rewrite (plain_scopes _ Hl). cbn [app]. by rewrite Hsc.
Qed.
Lemma rest_cons o l st x : rest (XFrame o (XCode l) :: st) x = andthen (after l x) (rest st). Proof. done. Qed.
Lemma ainv_mk p s q st others : x_end s = None → x_workers s = XWorker q st :: others → length (x_workers s) = n → Forall (λ w, w = XWorker [] []) others →
  top_ok (x_tasks s) q st → sc_ok (x_next s) (scopes st ++ x_dead s) →
  x_eval p = andthen (x_trace s, false) (λ _, residual (x_tasks s) q st) → ainv p s.
Proof. intros. split; [done|]. exists q, st, others. done. Qed.

Lemma sc_perm m l l' : l ≡ₚ l' → sc_ok m l → sc_ok m l'.
Proof. intros E [H1 H2]. split; [by rewrite <- E|by rewrite <- E]. Qed.
Lemma scopes_elems es : (SRun <$> es) ≫= seg_scope = [].
Proof. induction es as [|e es IH]; [done|exact IH]. Qed.
Lemma scopes_cons o l st : scopes (XFrame o (XCode l) :: st) = (l ≫= seg_scope) ++ scopes st. Proof. done. Qed.
Local Ltac mk q st others Hw Hn := left; apply (ainv_mk _ _ q st others);
  [done
  |cbn [x_upd x_set_workers x_workers x_set_tasks x_set_threw x_set_dead x_set_trace x_set_next x_submit alter list_alter]; rewrite Hw; cbn [alter list_alter]; done
  |cbn [x_upd x_set_workers x_workers x_set_tasks x_set_threw x_set_dead x_set_trace x_set_next x_submit alter list_alter]; rewrite <- Hn, Hw; cbn; done
  |done| | |]; cbn [x_upd x_set_workers x_set_tasks x_set_threw x_set_dead x_set_trace x_set_next x_submit x_end x_tasks x_dead x_trace x_next].
Lemma step_code p s q st others o l v s' : x_end s = None → x_workers s = XWorker q (XFrame o (XCode l) :: st) :: others → length (x_workers s) = n →
  Forall (λ w, w = XWorker [] []) others → top_ok (x_tasks s) q (XFrame o (XCode l) :: st) → sc_ok (x_next s) (scopes (XFrame o (XCode l) :: st) ++ x_dead s) →
  x_eval p = andthen (x_trace s, false) (λ _, residual (x_tasks s) q (XFrame o (XCode l) :: st)) →
  x_code 0 v o l st s = Some s' → goal p s'.
Proof.
  intros He Hw Hn Ho (Hb & Hrun & Hh & Hnew) Hsc Hev Hs. rewrite scopes_cons in Hsc.
  destruct l as [|[pr|sc bs par|sc t|h] l].
  - (* return *) destruct Hh as [-> _]. destruct o as [t|]; injection Hs as <-.
    + mk (@nil nat) (XFrame (Some t) (XSub t) :: st) others Hw Hn.
      * split; [|split; [done|split; [done|]]]; [eapply below_alter; [by right|done|done]|by apply ctr_alter_same].
      * exact Hsc.
      * rewrite residual_nil in *. rewrite Hev. unfold andthen. cbn. by destruct (rest st false).
    + inversion Hb; subst. mk (@nil nat) (@nil xframe) others Hw Hn; done.
  - destruct Hh as [-> Hl]. apply Forall_cons in Hl as [Hp Hl]. cbn [plain] in Hp. rewrite residual_nil, rest_cons, after_run in Hev. destruct pr as [|m k| |es k|pr h k].
    + injection Hs as <-. mk (@nil nat) (XFrame o (XCode l) :: st) others Hw Hn.
      * split; [done|]. split; [done|]. split; [by apply plain_run|done].
      * exact Hsc.
      * rewrite residual_nil, rest_cons, Hev. cbn [x_eval]. unfold andthen. by cbn.
    + cbn [x_code] in Hs. assert (x_lives s o = true) as Hlv.
      { destruct o as [t|]; [|done]. eapply lives_below; [exact Hb|done|]. destruct Hsc as [Hnd _]. cbn in Hnd. by rewrite (plain_scopes _ Hl) in Hnd. }
      rewrite Hlv in Hs. injection Hs as <-. mk (@nil nat) (XFrame o (XCode (SRun k :: l)) :: st) others Hw Hn.
      * split; [done|]. split; [done|]. split; [|done]. split; [done|]. by constructor.
      * exact Hsc.
      * rewrite residual_nil, rest_cons, Hev, trace_snoc. cbn [x_eval]. unfold andthen, x_then. cbn. done.
    + cbn [x_code] in Hs. injection Hs as <-. unfold x_throw. pose proof (unwind_below (x_tasks s) o st l Hb Hrun Hl) as Hu. cbn zeta in Hu.
      assert (andthen (andthen (x_eval XThrow) (after l)) (rest st) = rest (XFrame o (XCode l) :: st) true) as E by (cbn [x_eval]; rewrite rest_cons; unfold andthen; by cbn).
      rewrite E in Hev. clear E. destruct (unwind (XFrame o (XCode l) :: st)) as [ds st']. cbn [fst snd] in Hu. destruct st' as [|f st'].
      * right. split; [done|]. cbn. rewrite Hev, Hu. unfold andthen. cbn. by rewrite app_nil_r.
      * destruct Hu as (Hres & Htop & Hsc'). mk (@nil nat) (f :: st') others Hw Hn.
        -- done.
        -- rewrite scopes_cons in Hsc'. cbn in Hsc. rewrite Hsc' in Hsc. eapply sc_perm; [|exact Hsc]. rewrite (Permutation_app_comm (x_dead s)), !app_assoc. apply Permutation_app_tail. apply Permutation_app_comm.
        -- by rewrite residual_nil, Hev, Hres.
    + cbn [x_code] in Hs. apply small_each in Hp as (Hsm & Hes & Hk). rewrite Hn in Hs. rewrite eval_each, after_then in Hev.
      destruct (batches_small n (length es) Hsm) as [E|[En E]]; rewrite E in Hs; injection Hs as <-.
      * mk (@nil nat) (XFrame o (XCode ((SRun <$> es) ++ SRun k :: l)) :: st) others Hw Hn.
        -- split; [done|]. split; [done|]. split; [|done]. apply plain_run; [|done]. apply Forall_app. split; [|by constructor]. apply Forall_fmap. by eapply Forall_impl.
        -- rewrite scopes_cons, bind_app, scopes_elems. exact Hsc.
        -- rewrite residual_nil, rest_cons, after_evs. rewrite Hev. unfold andthen at 2 4. f_equal.
      * mk (@nil nat) (XFrame o (XCode (SSubmit (x_next s) (subrange es <$> [(0, length es)]) None :: SRun k :: l)) :: st) others Hw Hn.
        -- split; [done|]. split; [done|]. split; [|done]. split; [done|]. split; [done|]. split; [|by constructor]. exists es. split; [|done]. cbn. unfold subrange. cbn. by rewrite Nat.sub_0_r, take_ge.
        -- destruct Hsc as [H1 H2]. split.
           ++ rewrite scopes_cons. cbn in H1 |- *. apply NoDup_cons. split; [|done]. intros Hin. rewrite Forall_forall in H2. specialize (H2 _ Hin). cbn in H2. lia.
           ++ rewrite scopes_cons. cbn. constructor; [lia|]. eapply Forall_impl; [exact H2|]. cbn. lia.
        -- rewrite residual_nil, rest_cons, Hev. cbn [after fmap list_fmap concat app]. unfold subrange. cbn [fst snd drop]. rewrite Nat.sub_0_r, take_ge, app_nil_r by done. done.
    + injection Hs as <-. mk (@nil nat) (XFrame o (XCode (SRun pr :: STry h :: SRun k :: l)) :: st) others Hw Hn.
      * destruct Hp as (H1 & H2 & H3). split; [done|]. split; [done|]. split; [|done]. split; [done|]. by repeat constructor.
      * exact Hsc.
      * rewrite residual_nil, rest_cons, after_run, Hev. cbn [x_eval]. rewrite after_then. unfold andthen. destruct (x_eval pr) as [tp []]; cbn [fst snd after]; [|done].
        unfold x_then. cbn [fst snd]. destruct (x_eval h) as [th []]; cbn [fst snd]; rewrite <- !app_assoc; done.
  - destruct par as [t|].
    + destruct Hh as (-> & En & -> & Hroot & Hctr & Hl). cbn [x_code] in Hs. injection Hs as <-. mk [t] (XFrame o (XCode (SWait sc t :: l)) :: st) others Hw Hn.
      * split; [done|]. split; [done|]. split; [|done]. split; [done|]. split; [done|]. by left.
      * exact Hsc.
      * rewrite Hev. unfold residual. unfold andthen at 2 4. cbn [rest after concat evs foldr]. unfold andthen. cbn [fst snd]. destruct (evs _).2; cbn [app]; done.
    + destruct Hh as (-> & En & (b & -> & Hbod) & Hl). cbn [x_code default] in Hs. injection Hs as <-.
      assert (∀ u x, x_tasks s !! u = Some x → u < length (x_tasks s)) as Hlen by (intros u x Hu; by eapply lookup_lt_Some).
      assert (lt_opt o (length (x_tasks s))) as Hlo by (destruct o as [u|]; [|done]; destruct Hrun as (x & Hx & _); by eapply Hlen).
      mk [length (x_tasks s)] (XFrame o (XCode (SSubmit sc [] (Some (length (x_tasks s))) :: l)) :: st) others Hw Hn.
      * split; [by apply below_app|]. split; [|split].
        -- destruct o as [u|]; [|done]. destruct Hrun as (x & Hx & Hc). exists x. split; [by apply lookup_app_l_Some|done].
        -- split; [done|]. split; [done|]. split; [done|]. split; [|split; [|done]]; eexists; (split; [by apply list_lookup_middle|done]).
        -- constructor; [|constructor]. split; [done|]. eexists. split; [by apply list_lookup_middle|done].
      * exact Hsc.
      * rewrite Hev. unfold residual, bodies_of. cbn [fmap list_fmap concat]. rewrite (list_lookup_middle (x_tasks s) []) by done. cbn [xt_body]. rewrite !app_nil_r.
        unfold andthen at 2 4. cbn [rest after concat evs foldr fst snd app]. unfold andthen. cbn [fst snd]. rewrite app_nil_r. fold (evs b). destruct (evs b) as [tb []]; cbn [fst snd]; rewrite <- ?app_assoc; done.
  - destruct Hh as (Hroot & Hl & Hcase). cbn [x_code] in Hs.
    destruct Hcase as [(En & -> & (x & Hx & Hc))|[-> (x & Hx & Hc)]]; rewrite Hx in Hs; cbn [mbind option_bind] in Hs; rewrite Hc in Hs.
    + rewrite bool_decide_eq_false_2 in Hs by done. unfold x_get_task in Hs. rewrite Hw in Hs. cbn [lookup list_lookup mbind option_bind xw_queue last fst snd] in Hs.
      unfold x_execute in Hs. cbn [x_upd x_set_workers x_tasks] in Hs. rewrite Hx in Hs. cbn [mbind option_bind] in Hs.
      assert (x_lives (x_upd (xw_set_queue (pop_back [t])) 0 s) (Some t) = true) as Hlv.
      { cbn. rewrite Hx. apply bool_decide_eq_true_2. destruct Hroot as (x' & Hx' & _ & <-). rewrite Hx in Hx'. injection Hx' as <-. destruct Hsc as [Hnd _]. cbn in Hnd.
        apply NoDup_cons in Hnd as [Hnd _]. intros Hd. apply Hnd, elem_of_app. by right. }
      rewrite Hlv in Hs. injection Hs as <-.
      apply Forall_cons in Hnew as [(Hlo & x1 & Hx1 & Hbod) _]. rewrite Hx in Hx1. injection Hx1 as <-.
      mk (@nil nat) (XFrame (Some t) (XCode (SRun <$> xt_body x)) :: XFrame o (XCode (SWait sc t :: l)) :: st) others Hw Hn.
      * split; [by constructor|]. split; [by exists x|]. split; [|constructor]. apply plain_run; [|done]. apply Forall_fmap. by eapply Forall_impl.
      * rewrite !scopes_cons, scopes_elems. exact Hsc.
      * rewrite Hev, residual_nil, !rest_cons. unfold residual, bodies_of. cbn [fmap list_fmap concat]. rewrite Hx, app_nil_r. pose proof (after_evs (xt_body x) []) as E. rewrite app_nil_r in E. rewrite E. clear E.
        unfold andthen. cbn [fst snd after]. rewrite app_nil_r. done.
    + injection Hs as <-. mk (@nil nat) (XFrame o (XCode l) :: st) others Hw Hn.
      * split; [done|]. split; [done|]. split; [by apply plain_run|done].
      * rewrite scopes_cons. eapply sc_perm; [|exact Hsc]. cbn. rewrite app_assoc. rewrite <- Permutation_cons_append. done.
      * rewrite Hev, !residual_nil. done.
  - destruct Hh as [-> Hl]. apply Forall_cons in Hl as [Hp Hl]. injection Hs as <-. mk (@nil nat) (XFrame o (XCode l) :: st) others Hw Hn.
    + split; [done|]. split; [done|]. split; [by apply plain_run|done].
    + exact Hsc.
    + rewrite Hev, !residual_nil. done.
Qed.

Lemma idle_step p s w v s' : ainv p s → w ≠ 0 → x_step w v s = Some s' → s' = s.
Proof.
  intros [He (q & st & others & Hw & Hn & Ho & Htop & Hsc & Hev)] Nw Hs. unfold x_step in Hs. rewrite He in Hs. destruct w as [|w]; [done|].
  rewrite Hw in Hs. cbn [lookup list_lookup mbind option_bind] in Hs. destruct (others !! w) as [y|] eqn:Hy; [|done]. cbn [mbind option_bind] in Hs.
  assert (y = XWorker [] []) as -> by (by eapply (proj1 (Forall_lookup _ _) Ho)). cbn [xw_stack] in Hs. unfold x_get_task in Hs. rewrite Hw in Hs.
  cbn [lookup list_lookup mbind option_bind] in Hs. rewrite Hy in Hs. cbn [mbind option_bind xw_queue last] in Hs.
  assert (q = []) as ->.
  { assert (n ≠ 1) as N. { rewrite <- Hn, Hw. cbn. apply lookup_lt_Some in Hy. lia. }
    destruct st as [|[o [l|t|t]] st]; [done| |by destruct Htop as (_ & _ & ? & _)..]. destruct Htop as (_ & _ & Hh & _).
    destruct l as [|[| ? ? []| |] l]; cbn in Hh; try by destruct Hh; [done|]; tauto. all: tauto. }
  destruct v as [j|]; [|cbn in Hs; injection Hs as <-; done]. destruct (decide (j = S w)) as [->|Hj]; [done|].
  destruct j as [|j].
  + cbn in Hs. injection Hs as <-. done.
  + cbn [lookup list_lookup] in Hs. destruct (others !! j) as [y|] eqn:Hy'; [|done]. assert (y = XWorker [] []) as -> by (by eapply (proj1 (Forall_lookup _ _) Ho)).
    cbn in Hs. injection Hs as <-. done.
Qed.
Lemma ainv_step p s w v s' : ainv p s → x_step w v s = Some s' → goal p s'.
Proof.
  intros I Hs. destruct w as [|w]; [|apply (idle_step p) in Hs as ->; [by left|done|done]].
  destruct I as [He (q & st & others & Hw & Hn & Ho & Htop & Hsc & Hev)]. unfold x_step in Hs. rewrite He in Hs.
  { rewrite Hw in Hs. cbn [lookup list_lookup mbind option_bind xw_stack] in Hs. destruct st as [|[o [l|t|t]] st]; [done| | |].
    + by eapply step_code.
    + destruct Htop as (Hb & -> & -> & (x & Hx & Hc)). injection Hs as <-. mk (@nil nat) (XFrame (Some t) (XCheck t) :: st) others Hw Hn.
      * split; [|split; [done|split; [done|]]]; [eapply below_alter; [by right|done|done]|].
        exists (xt_upd (upd_ctr dec16) x). rewrite list_lookup_alter, Hx. split; [done|]. cbn. rewrite Hc. done.
      * exact Hsc.
      * rewrite Hev, !residual_nil. done.
    + destruct Htop as (Hb & -> & -> & (x & Hx & Hc)). rewrite Hx in Hs. cbn [mbind option_bind] in Hs. inversion Hb as [|? o sc l st' Hroot Hl Hlo Hrun Hb']; subst.
      destruct Hroot as (x' & Hx' & Hp & Hscp). rewrite Hx in Hx'. injection Hx' as <-. rewrite Hc, Hp in Hs. rewrite bool_decide_eq_true_2 in Hs by done. injection Hs as <-.
      mk (@nil nat) (XFrame o (XCode (SWait sc t :: l)) :: st') others Hw Hn.
      * split; [done|]. split; [done|]. split; [|constructor]. split; [by exists x|]. split; [done|]. right. split; [done|]. by exists x.
      * exact Hsc.
      * rewrite Hev, !residual_nil. done. }
Qed.
Lemma ainv_start p : 1 ≤ n → x_small n p → ainv p (x_start n p).
Proof.
  intros Hn Hp. split; [done|]. exists [], [XFrame None (XCode [SRun p])], (replicate (n - 1) (XWorker [] [])). split; [done|]. split; [cbn; rewrite replicate_length; lia|].
  split; [by apply Forall_replicate|]. split; [|split].
  - split; [constructor|]. split; [done|]. split; [|constructor]. split; [done|]. by constructor.
  - split; constructor.
  - rewrite residual_nil, rest_cons, after_run. unfold andthen. cbn. rewrite !app_nil_r. by destruct (x_eval p).
Qed.
Lemma goal_reach p s : 1 ≤ n → x_small n p → x_reach n p s → goal p s.
Proof.
  intros Hn Hp. induction 1 as [|s w v s' _ [IH|[IH _]] Hs]; [left; by apply ainv_start|by eapply ainv_step|]. unfold x_step in Hs. by rewrite IH in Hs.
Qed.

(** * Main comes to an end *)
Definition wts (f : xprog → nat) (l : list xprog) : nat := sum_list (f <$> l).
Fixpoint wt (p : xprog) : nat :=
  match p with
  | XDone | XThrow => 1
  | XMark _ k => 1 + wt k
  | XEach elems k => 9 + (fix go l := match l with [] => 0 | e :: l => wt e + go l end) elems + wt k
  | XTry p h k => 3 + wt p + wt h + wt k
  end.
Lemma wt_each elems k : wt (XEach elems k) = 9 + wts wt elems + wt k.
Proof. cbn [wt]. f_equal. f_equal. induction elems as [|e l IH]; [done|]. unfold wts in *. cbn. by rewrite IH. Qed.
Definition wt_seg (x : seg) : nat :=
  match x with
  | SRun p => wt p
  | SSubmit _ bs None => 8 + wts wt (concat bs)
  | SSubmit _ _ (Some _) => 2
  | SWait _ _ => 1
  | STry h => 1 + wt h
  end.
Definition wt_code (l : list seg) : nat := sum_list (wt_seg <$> l).
Definition wt_frame (f : xframe) : nat := match xf_pc f with XCode l => 4 + wt_code l | XSub _ => 3 | XCheck _ => 2 end.
Definition wt_stack (st : list xframe) : nat := sum_list (wt_frame <$> st).
Definition wt_queue (ts : list xtask) (q : list nat) : nat := sum_list ((λ t, 5 + match ts !! t with Some x => wts wt (xt_body x) | None => 0 end) <$> q).
Definition mu (s : xpool) : nat :=
  match x_end s, x_workers s with None, XWorker q st :: _ => wt_queue (x_tasks s) q + wt_stack st | _, _ => 0 end.
Local Arguments wt_queue : simpl never.
Local Arguments wt_code : simpl never.
Local Arguments wts : simpl never.
Lemma wt_elems es l : wt_code ((SRun <$> es) ++ l) = wts wt es + wt_code l.
Proof. unfold wt_code, wts. induction es as [|e es IH]; [done|]. cbn in *. lia. Qed.
Lemma wt_unwind_code l l' : (unwind_code l).2 = Some l' → wt_code l' < wt_code l.
Proof.
  revert l'. induction l as [|x l IH]; intros l'; [done|]. destruct x as [pr|sc bs o|sc t|h]; cbn [unwind_code].
  - intros H. apply IH in H. unfold wt_code in *. cbn. lia.
  - destruct (unwind_code l) as [ds r]. cbn. intros H. apply IH in H. unfold wt_code in *. cbn. lia.
  - destruct (unwind_code l) as [ds r]. cbn. intros H. apply IH in H. unfold wt_code in *. cbn. lia.
  - cbn. intros [= <-]. unfold wt_code. cbn. lia.
Qed.
Lemma wt_unwind st : st ≠ [] → wt_stack (unwind st).2 < wt_stack st.
Proof.
  induction st as [|[o [l|t|t]] st IH]; [done|intros _; cbn [unwind]..].
  - destruct (unwind_code l) as [ds [l'|]] eqn:E.
    + pose proof (wt_unwind_code l l' ltac:(by rewrite E)) as H. unfold wt_stack. cbn. lia.
    + destruct (unwind st) as [ds' st'] eqn:E'. cbn. destruct st as [|f st]; [cbn in E'; injection E' as <- <-; unfold wt_stack; cbn; lia|]. specialize (IH ltac:(done)). unfold wt_stack in *. cbn in *. lia.
  - destruct st as [|f st]; [unfold wt_stack; cbn; lia|]. specialize (IH ltac:(done)). unfold wt_stack in *. cbn in *. lia.
  - destruct st as [|f st]; [unfold wt_stack; cbn; lia|]. specialize (IH ltac:(done)). unfold wt_stack in *. cbn in *. lia.
Qed.
Lemma mu_set s q st others (f : xworker → xworker) ts : x_end s = None → x_workers s = XWorker q st :: others →
  ∀ s', x_end s' = None → x_workers s' = alter f 0 (x_workers s) → x_tasks s' = ts → mu s' = wt_queue ts (xw_queue (f (XWorker q st))) + wt_stack (xw_stack (f (XWorker q st))).
Proof. intros He Hw s' He' Hw' Ht. unfold mu. rewrite He', Hw', Hw, Ht. cbn. by destruct (f (XWorker q st)). Qed.
Lemma main_step p s v q f st others : ainv p s → x_workers s = XWorker q (f :: st) :: others → ∃ s', x_step 0 v s = Some s' ∧ mu s' < mu s.
Proof.
  intros [He (q' & st' & others' & Hw & Hn & Ho & Htop & _)] Hw'. rewrite Hw in Hw'. injection Hw' as -> -> ->.
  assert (mu s = wt_queue (x_tasks s) q + wt_stack (f :: st)) as Hmu by (unfold mu; by rewrite He, Hw). rewrite Hmu. clear Hmu.
  unfold x_step. rewrite He, Hw. cbn [lookup list_lookup mbind option_bind xw_stack]. destruct f as [o [l|t|t]].
  - destruct Htop as (_ & _ & Hh & Hq).
    assert (∀ l' s2, x_end s2 = None → x_workers s2 = x_workers s → x_tasks s2 = x_tasks s → wt_code l' < wt_code l →
      mu (x_upd (xw_set_stack (XFrame o (XCode l') :: st)) 0 s2) < wt_queue (x_tasks s) q + wt_stack (XFrame o (XCode l) :: st)) as Hgo.
    { intros l' s2 E1 E2 E3 Hl. rewrite (mu_set s _ _ _ (xw_set_stack (XFrame o (XCode l') :: st)) (x_tasks s) He Hw) by (cbn; by rewrite ?E2). unfold wt_stack. cbn. lia. }
    destruct l as [|[pr|sc bs par|sc t|h] l]; cbn [x_code].
    + destruct o as [t|]; eexists; split; [done| |done|].
      * rewrite (mu_set s _ _ _ _ (alter (xt_upd set_done) t (x_tasks s)) He Hw) by done. cbn. destruct Hh as [-> _]. unfold wt_queue, wt_stack. cbn. lia.
      * rewrite (mu_set s _ _ _ _ (x_tasks s) He Hw) by done. cbn. unfold wt_stack. cbn. lia.
    + destruct pr as [|m k| |es k|pr h k].
      * eexists; split; [done|]. apply Hgo; try done. unfold wt_code. cbn. lia.
      * destruct (x_lives s o); eexists; (split; [done|]); [|unfold mu; cbn; unfold wt_stack; cbn; lia]. apply Hgo; try done. unfold wt_code. cbn. lia.
      * eexists; split; [done|]. unfold x_throw. pose proof (wt_unwind (XFrame o (XCode l) :: st) ltac:(done)) as Hu. destruct (unwind _) as [ds st2]. cbn [snd] in Hu.
        assert (wt_stack (XFrame o (XCode l) :: st) < wt_stack (XFrame o (XCode (SRun XThrow :: l)) :: st)) by (unfold wt_stack, wt_code; cbn; unfold wt_code; cbn; lia).
        destruct st2 as [|f2 st2]; [unfold mu; cbn; lia|]. rewrite (mu_set s _ _ _ (xw_set_stack (f2 :: st2)) (x_tasks s) He Hw) by done. cbn [xw_set_stack xw_queue xw_stack]. lia.
      * destruct Hh as [-> Hpl]. apply Forall_cons in Hpl as [Hp _]. apply small_each in Hp as (Hp & _ & _). rewrite Hn.
        destruct (batches_small n (length es) Hp) as [->|[_ ->]]; eexists; (split; [done|]); apply Hgo; try done.
        -- rewrite wt_elems. unfold wt_code. cbn -[wt]. rewrite wt_each. lia.
        -- unfold wt_code. cbn -[wt]. rewrite wt_each. rewrite app_nil_r. unfold subrange. cbn. rewrite Nat.sub_0_r, drop_0, firstn_all. lia.
      * eexists; split; [done|]. apply Hgo; try done. unfold wt_code. cbn. lia.
    + destruct par as [t|]; cbn in Hh.
      * destruct Hh as (-> & _ & -> & _). eexists; split; [done|]. apply Hgo; try done. unfold wt_code. cbn. lia.
      * destruct Hh as (-> & _ & (b & -> & _) & _). eexists; split; [done|].
        unfold x_upd, x_submit, x_upd, x_set_workers, mu. cbn. rewrite He, Hw. cbn. unfold wt_queue, wt_stack. cbn. rewrite lookup_app_r, Nat.sub_diag by done. cbn. unfold wt_code. cbn. rewrite app_nil_r. lia.
    + cbn in Hh. destruct Hh as ((x & Hx & Hroot) & _ & Hh). rewrite Hx. cbn [mbind option_bind]. destruct Hh as [(_ & -> & (x' & Hx' & Hc))|(-> & (x' & Hx' & Hc))]; rewrite Hx in Hx'; injection Hx' as <-; rewrite Hc.
      * rewrite bool_decide_eq_false_2 by done. unfold x_get_task. rewrite Hw. cbn. unfold x_execute. cbn [x_tasks x_upd x_set_workers]. rewrite Hx. cbn [mbind option_bind]. eexists; split; [done|].
        destruct (x_lives _ _); [|unfold mu; cbn; unfold wt_stack; cbn; lia]. unfold mu. cbn. rewrite He, Hw. cbn. unfold wt_queue, wt_stack. cbn. rewrite Hx.
        pose proof (wt_elems (xt_body x) []) as E. rewrite app_nil_r in E. rewrite E. unfold wt_code. cbn. lia.
      * rewrite bool_decide_eq_true_2 by done. eexists; split; [done|]. apply Hgo; try done. unfold wt_code. cbn. lia.
    + eexists; split; [done|]. apply Hgo; try done. unfold wt_code. cbn. lia.
  - destruct Htop as (_ & _ & -> & _). eexists; split; [done|]. rewrite (mu_set s _ _ _ (xw_set_stack (XFrame o (XCheck t) :: st)) _ He Hw) by done. cbn. unfold wt_queue, wt_stack. cbn. lia.
  - destruct Htop as (Hb & -> & -> & (x & Hx & _)). rewrite Hx. cbn [mbind option_bind]. destruct (if bool_decide _ then _ else _) as [u|] eqn:E.
    2:{ eexists; split; [done|]. rewrite (mu_set s _ _ _ (xw_set_stack st) _ He Hw) by done. cbn. unfold wt_queue, wt_stack. cbn. lia. }
    exfalso. inversion Hb as [|? o sc l st2 (x2 & Hx2 & Hp & _)]; subst. rewrite Hx in Hx2. injection Hx2 as <-. rewrite Hp in E. by destruct (bool_decide _).
Qed.
End one.
