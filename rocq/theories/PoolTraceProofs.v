(** Proofs about the actions of a run of the thread pool. *)
From Verif Require Import Base Task ParallelFor ThreadPool ThreadPoolProofs ThreadPoolRun ThreadPoolJoin PoolTrace.
Local Open Scope nat_scope.

(** * Fork-join programs without workers *)

(** Tasks that a function submitted and that are not finished: what they will be waited for as, and what they will still do,
    with everything they submit. *)
Notation pending := (list (nat * list nat)).
Definition quiet (e : pending) : Prop := Forall (λ x, x.2 = []) e.

(** A function that begins with pending tasks [e] can make, together with them, the actions and end with the last
    argument pending. *)
Inductive fj : pending → prog → list nat → pending → Prop :=
  | fj_done e : fj e PDone [] e
  | fj_act e a k t e' : fj e k t e' → fj e (PAct a k) (a :: t) e'
  | fj_task e1 r a l e2 p t e' : fj (e1 ++ (r, l) :: e2) p t e' → fj (e1 ++ (r, a :: l) :: e2) p (a :: t) e'
  | fj_submit e c o k n tc ec t e' :
      fj [] c tc ec → quiet ec → fj (e ++ [(default n o, tc)]) (k n) t e' → fj e (PSubmit c o k) t e'
  | fj_wait e r k t e' : Forall (λ x, x.1 = r → x.2 = []) e → fj e k t e' → fj e (PWait r k) t e'
  | fj_stop e k t e' : fj e k t e' → fj e (PStop k) t e'.

Definition ends (e : pending) (p : prog) (t : list nat) : Prop := ∃ e', fj e p t e' ∧ quiet e'.

(** Tasks that do nothing do not matter. *)
Inductive ext : pending → pending → Prop :=
  | ext_nil : ext [] []
  | ext_keep x e f : ext e f → ext (x :: e) (x :: f)
  | ext_add r e f : ext e f → ext e ((r, []) :: f).
Lemma ext_refl e : ext e e.
Proof. induction e; by constructor. Qed.
Lemma ext_app e f e' f' : ext e f → ext e' f' → ext (e ++ e') (f ++ f').
Proof. intros H H'. induction H; cbn; [done|by constructor|by constructor]. Qed.
Lemma ext_split x e1 e2 f : ext (e1 ++ x :: e2) f → ∃ f1 f2, f = f1 ++ x :: f2 ∧ ext e1 f1 ∧ ext e2 f2.
Proof.
  intros H. remember (e1 ++ x :: e2) as e eqn:E. revert e1 E. induction H as [|y e f H IH|r e f H IH]; intros e1 E.
  - by destruct e1.
  - destruct e1 as [|z e1]; cbn in E; injection E as -> ->.
    + exists [], f. split; [done|]. split; [constructor|done].
    + destruct (IH e1 eq_refl) as (f1 & f2 & -> & H1 & H2). exists (z :: f1), f2. split; [done|]. split; [by constructor|done].
  - destruct (IH e1 E) as (f1 & f2 & -> & H1 & H2). exists ((r, []) :: f1), f2. split; [done|]. split; [by constructor|done].
Qed.
Lemma ext_forall (P : nat * list nat → Prop) e f : (∀ r, P (r, [])) → ext e f → Forall P e → Forall P f.
Proof.
  intros HP H. induction H as [|x e f _ IH|r e f _ IH]; intros HF; [done| |].
  - apply Forall_cons in HF as [? ?]. constructor; [done|by apply IH].
  - constructor; [apply HP|by apply IH].
Qed.

Lemma fj_ext e p t e' f : fj e p t e' → ext e f → ∃ f', fj f p t f' ∧ ext e' f'.
Proof.
  intros H. revert f. induction H as [e|e a k t e' _ IH|e1 r a l e2 p t e' _ IH|e c o k n tc ec t e' Hc _ Hq _ IH|e r k t e' Hw _ IH|e k t e' _ IH];
    intros f Hf.
  - exists f. split; [constructor|done].
  - destruct (IH f Hf) as (f' & ? & ?). exists f'. split; [by constructor|done].
  - apply ext_split in Hf as (f1 & f2 & -> & H1 & H2).
    destruct (IH (f1 ++ (r, l) :: f2)) as (f' & ? & ?); [apply ext_app; [done|by constructor]|]. exists f'. split; [by constructor|done].
  - destruct (IH (f ++ [(default n o, tc)])) as (f' & ? & ?); [apply ext_app; [done|apply ext_refl]|].
    exists f'. split; [by eapply fj_submit|done].
  - destruct (IH f Hf) as (f' & ? & ?). exists f'. split; [|done]. constructor; [|done]. by eapply ext_forall.
  - destruct (IH f Hf) as (f' & ? & ?). exists f'. split; [by constructor|done].
Qed.
Lemma ends_ext e p t f : ends e p t → ext e f → ends f p t.
Proof. intros (e' & H & Hq) Hf. destruct (fj_ext _ _ _ _ _ H Hf) as (f' & ? & ?). exists f'. split; [done|]. by eapply ext_forall. Qed.

(** * The pending tasks of a call in a state of the pool *)

Definition pend (ow : list (option nat)) (ts : list task) (T : option nat → list nat) (o : option nat) (u : nat) : option (nat * list nat) :=
  match ow !! u, ts !! u with
  | Some o', Some z => if decide (o' = o) then if t_done z then None else Some (default u (t_parent z), T (Some u)) else None
  | _, _ => None
  end.
Definition env (ow : list (option nat)) (ts : list task) (T : option nat → list nat) (o : option nat) : pending :=
  omap (pend ow ts T o) (seq 0 (length ts)).

Arguments env : simpl never.

Lemma omap_ext_in {A B} (f g : A → option B) (l : list A) : (∀ x, x ∈ l → f x = g x) → omap f l = omap g l.
Proof.
  induction l as [|x l IH]; intros H; [done|]. cbn. rewrite (H x) by left. rewrite IH; [done|]. intros y Hy. apply H. by right.
Qed.
Lemma env_ext ow ts T ow' ts' T' o : length ts' = length ts → (∀ u, u < length ts → pend ow' ts' T' o u = pend ow ts T o u) →
  env ow' ts' T' o = env ow ts T o.
Proof. intros Hl H. unfold env. rewrite Hl. apply omap_ext_in. intros u Hu. apply elem_of_seq in Hu. apply H. lia. Qed.
Lemma seq_split_at u n : u < n → seq 0 n = seq 0 u ++ u :: seq (S u) (n - S u).
Proof. intros H. replace n with (u + S (n - S u)) at 1 by lia. by rewrite seq_app. Qed.

(** The trace of one pending task is replaced. *)
Lemma env_change ow ts T T' o u z : ow !! u = Some o → ts !! u = Some z → t_done z = false → (∀ v, v ≠ u → T' (Some v) = T (Some v)) →
  ∃ e1 e2, env ow ts T o = e1 ++ (default u (t_parent z), T (Some u)) :: e2 ∧ env ow ts T' o = e1 ++ (default u (t_parent z), T' (Some u)) :: e2.
Proof.
  intros Ho Hz Hd HT. pose proof (lookup_lt_Some _ _ _ Hz) as Hlt.
  exists (omap (pend ow ts T o) (seq 0 u)), (omap (pend ow ts T o) (seq (S u) (length ts - S u))).
  assert (∀ T, pend ow ts T o u = Some (default u (t_parent z), T (Some u))) as Hp.
  { intros T0. unfold pend. rewrite Ho, Hz, Hd. by rewrite decide_True. }
  assert (∀ l : list nat, u ∉ l → omap (pend ow ts T' o) l = omap (pend ow ts T o) l) as He.
  { intros l Hl. apply omap_ext_in. intros v Hv. unfold pend. rewrite HT; [done|]. by intros ->. }
  unfold env. rewrite (seq_split_at u (length ts) Hlt), !omap_app. cbn [omap list_omap]. rewrite !Hp.
  split; [done|]. rewrite He, (He (seq (S u) _)); [done| |]; rewrite elem_of_seq; lia.
Qed.

(** Traces of others do not matter. *)
Lemma env_same ow ts T T' o : (∀ u z, ow !! u = Some o → ts !! u = Some z → t_done z = false → T' (Some u) = T (Some u)) →
  env ow ts T' o = env ow ts T o.
Proof.
  intros H. apply env_ext; [done|]. intros u _. unfold pend. destruct (ow !! u) as [o'|] eqn:Eo; [|done]. destruct (ts !! u) as [z|] eqn:Ez; [|done].
  destruct (decide (o' = o)) as [->|]; [|done]. destruct (t_done z) eqn:Ed; [done|]. by erewrite H.
Qed.

Definition fields (z : task) : option nat * bool := (t_parent z, t_done z).
Lemma pend_fields ow (ts ts' : list task) T o u : fields <$> (ts' !! u) = fields <$> (ts !! u) → pend ow ts' T o u = pend ow ts T o u.
Proof.
  unfold pend. destruct (ow !! u); [|done]. destruct (ts' !! u) as [z'|], (ts !! u) as [z|]; cbn; try done. unfold fields. intros [= -> ->]. done.
Qed.
Lemma fields_ctr g i (ts : list task) u : fields <$> (alter (upd_ctr g) i ts !! u) = fields <$> (ts !! u).
Proof.
  destruct (decide (u = i)) as [->|Hu]; [rewrite list_lookup_alter; by destruct (ts !! i)|by rewrite list_lookup_alter_ne].
Qed.
Lemma env_ctr ow g i ts T o : env ow (alter (upd_ctr g) i ts) T o = env ow ts T o.
Proof. apply env_ext; [apply alter_length|]. intros u _. apply pend_fields, fields_ctr. Qed.

Lemma env_submit ow ts T o o' p : length ow = length ts →
  env (ow ++ [o]) (count_in p ts ++ [Task p 1 false]) T o' =
    env ow ts T o' ++ (if decide (o = o') then [(default (length ts) p, T (Some (length ts)))] else []).
Proof.
  intros Hl. unfold env. rewrite app_length, count_in_length. cbn [length]. rewrite seq_app, omap_app. f_equal.
  - apply omap_ext_in. intros u Hu%elem_of_seq. transitivity (pend ow (count_in p ts) T o' u).
    + unfold pend. rewrite !lookup_app_l; [done|rewrite count_in_length; lia|lia].
    + apply pend_fields. destruct p; [apply fields_ctr|done].
  - cbn [seq omap list_omap Nat.add]. unfold pend. rewrite <-Hl at 1. rewrite lookup_app_r, Nat.sub_diag by lia. cbn [lookup list_lookup].
    rewrite lookup_app_r by (rewrite count_in_length; lia). rewrite count_in_length, Nat.sub_diag. cbn. by case_decide.
Qed.

(** A task that is done leaves the pending tasks of its submitter. *)
Lemma env_done ow ts T v o : T (Some v) = [] → ext (env ow (alter set_done v ts) T o) (env ow ts T o).
Proof.
  intros HT. unfold env. rewrite alter_length. induction (seq 0 (length ts)) as [|u l IH]; [constructor|]. cbn.
  destruct (decide (u = v)) as [->|Hu].
  - assert (pend ow (alter set_done v ts) T o v = None) as ->.
    { unfold pend. destruct (ow !! v); [|done]. rewrite list_lookup_alter. destruct (ts !! v); [|done]. cbn. by case_decide. }
    unfold pend. destruct (ow !! v); [|done]. destruct (ts !! v) as [z|]; [|done]. case_decide; [|done]. destruct (t_done z); [done|].
    rewrite HT. by constructor.
  - assert (pend ow (alter set_done v ts) T o u = pend ow ts T o u) as ->.
    { unfold pend. by rewrite list_lookup_alter_ne. }
    destruct (pend ow ts T o u); [by constructor|done].
Qed.

Lemma env_none ow ts T o : (∀ u r, ¬ open_task ow ts o u r) → env ow ts T o = [].
Proof.
  intros H. unfold env. induction (seq 0 (length ts)) as [|u l IH]; [done|]. cbn. rewrite IH.
  destruct (pend ow ts T o u) as [x|] eqn:E; [|done]. exfalso. unfold pend in E. destruct (ow !! u) as [o'|] eqn:Eo; [|done].
  destruct (ts !! u) as [z|] eqn:Ez; [|done]. destruct (decide (o' = o)) as [->|]; [|done]. destruct (t_done z) eqn:Ed; [done|].
  apply (H u (default u (t_parent z))). by exists z.
Qed.
Lemma env_elem ow ts T o x : x ∈ env ow ts T o → ∃ u, open_task ow ts o u x.1.
Proof.
  unfold env. intros (u & _ & E)%elem_of_list_omap. unfold pend in E. destruct (ow !! u) as [o'|] eqn:Eo; [|done].
  destruct (ts !! u) as [z|] eqn:Ez; [|done]. destruct (decide (o' = o)) as [->|]; [|done]. destruct (t_done z) eqn:Ed; [done|].
  injection E as <-. exists u. by exists z.
Qed.

(** * What the rest of a run does *)

(** [T] says for the queued tasks and the running functions what they and what they submit will still do. *)
Record future (ow : list (option nat)) (x : flat) (T : option nat → list nat) : Prop := {
  fu_queued : ∀ u c, u ∈ fl_q x → fl_progs x !! u = Some c → ends [] c (T (Some u));
  fu_running : ∀ o p, Frame o (FRun p) ∈ fl_f x → ends (env ow (fl_tasks x) T o) p (T o) }.

Lemma split_unique {A} (v : A) l1 l2 l1' l2' : NoDup (l1 ++ v :: l2) → l1 ++ v :: l2 = l1' ++ v :: l2' → l1 = l1'.
Proof.
  revert l1'. induction l1 as [|a l1 IH]; intros [|b l1'] Hnd E; cbn in *; [done| | |].
  - injection E as <- ->. apply NoDup_cons in Hnd as [Hv _]. exfalso. apply Hv. set_solver.
  - injection E as -> <-. apply NoDup_cons in Hnd as [Hv _]. exfalso. apply Hv. set_solver.
  - injection E as <- E. apply NoDup_cons in Hnd as [_ Hnd]. f_equal. by eapply IH.
Qed.

Lemma running_unique x o p p' : ginv x → Frame o (FRun p) ∈ fl_f x → Frame o (FRun p') ∈ fl_f x → p = p'.
Proof.
  intros G H H'. pose proof (g_nodup _ G) as Hnd. apply elem_of_list_lookup in H as [i Hi]. apply elem_of_list_lookup in H' as [j Hj].
  assert (i = j) as ->; [|by simplify_eq].
  eapply NoDup_lookup; [exact Hnd| |]; rewrite list_lookup_fmap; [by rewrite Hi|by rewrite Hj].
Qed.

(** A call [o] makes one more action: its submitter, its submitter's submitter and so on see it. *)
Definition upd (T : option nat → list nat) (o : option nat) (l : list nat) : option nat → list nat :=
  λ o', if decide (o' = o) then l else T o'.
Lemma upd_same T o l : upd T o l o = l.
Proof. unfold upd. by rewrite decide_True. Qed.
Lemma upd_other T o l o' : o' ≠ o → upd T o l o' = T o'.
Proof. intros H. unfold upd. by rewrite decide_False. Qed.

Lemma climb ow x (a : nat) : finv ow x → jinv ow x → ∀ m o T l, 
  (∀ v, o = Some v → ∃ l1 l2, fl_started x = l1 ++ v :: l2 ∧ length l1 < m) →
  (∃ p, Frame o (FRun p) ∈ fl_f x) →
  T o = a :: l →
  (∀ u c, u ∈ fl_q x → fl_progs x !! u = Some c → ends [] c (T (Some u))) →
  (∀ o' p, Frame o' (FRun p) ∈ fl_f x → ends (env ow (fl_tasks x) (if decide (o ≫= (λ v : nat, ow !! v) = Some o') then upd T o l else T) o') p (T o')) →
  ∃ T', future ow x T' ∧ (o ≠ None → T' None = a :: T None) ∧ (o = None → T' None = T None).
Proof.
  intros I J. pose proof (i_g _ _ I) as G. pose proof (g_perm _ G) as Hperm.
  assert (NoDup (fl_started x)) as Hnds.
  { eapply (NoDup_app (fl_started x) (fl_q x)). rewrite Hperm. apply NoDup_seq. }
  induction m as [|m IH]; intros o T l Hm Ho HTo Hq Hrun.
  { destruct o as [v|]; [destruct (Hm v eq_refl) as (? & ? & _ & ?); lia|]. exists T. split; [|done]. split; [done|].
    intros o' p Hp. specialize (Hrun o' p Hp). rewrite decide_False in Hrun; [done|]. by intros [=]. }
  destruct o as [v|].
  2: { exists T. split; [|done]. split; [done|]. intros o' p Hp. specialize (Hrun o' p Hp). rewrite decide_False in Hrun; [done|]. by intros [=]. }
  destruct Ho as [pv Hpv]. pose proof (ginv_f_lt _ v _ G Hpv) as [Hlt _].
  destruct (lookup_lt_is_Some_2 _ _ Hlt) as [z Hz].
  assert (t_done z = false) as Hd.
  { destruct (t_done z) eqn:Ed; [|done]. destruct (g_undone _ G v z Hz Ed) as [_ Hn]. by apply Hn in Hpv. }
  destruct (lookup_lt_is_Some_2 ow v) as [o1 Ho1]; [by rewrite (i_ow _ _ I)|].
  destruct (j_open _ _ J v o1 (default v (t_parent z))) as [p1 Hp1]; [by exists z|].
  destruct (env_change ow (fl_tasks x) T (upd T (Some v) l) o1 v z Ho1 Hz Hd) as (e1 & e2 & E1 & E2).
  { intros w Hw. apply upd_other. congruence. }
  rewrite upd_same in E2. rewrite HTo in E1.
  assert (o1 ≠ Some v) as Hne.
  { intros ->. destruct (i_order _ _ I v v Ho1) as [Hs Hb]. specialize (Hb Hs). destruct Hb as (l1 & l2 & E & Hin).
    rewrite E in Hnds. apply NoDup_app in Hnds as (_ & Hx & _). apply (Hx v Hin). left. }
  pose proof (Hrun o1 p1 Hp1) as H1. rewrite decide_True in H1 by done. rewrite E2 in H1.
  destruct (IH o1 (upd T o1 (a :: T o1)) (T o1)) as (T' & HF & HN & HN').
  - intros w ->. destruct (i_order _ _ I v w Ho1) as [Hs Hb]. destruct (Hm v eq_refl) as (l1 & l2 & E & Hlen).
    destruct Hb as (l1' & l2' & E' & Hin); [rewrite E; set_solver|].
    assert (l1 = l1') as <-. { eapply split_unique; [|rewrite <-E; exact E']. by rewrite <-E. }
    apply elem_of_list_split in Hin as (a1 & a2 & ->). exists a1, (a2 ++ v :: l2). split; [by rewrite E, <-app_assoc|].
    rewrite app_length in Hlen. cbn in Hlen. lia.
  - by exists p1.
  - apply upd_same.
  - intros u c Hu Hc. rewrite upd_other; [by apply Hq|]. intros <-.
    assert (u ∈ fl_started x) as Hus. { apply (g_started _ G). apply elem_of_list_fmap. eexists. split; [|exact Hp1]. done. }
    by apply (ginv_disj _ u G) in Hus.
  - intros o' p Hp. destruct (decide (o' = o1)) as [->|Ho'].
    + rewrite upd_same. rewrite decide_False.
      2: { destruct o1 as [w|]; [|done]. cbn. intros Hw. destruct (i_order _ _ I w w Hw) as [Hs Hb]. specialize (Hb Hs). destruct Hb as (l1 & l2 & E & Hin).
           rewrite E in Hnds. apply NoDup_app in Hnds as (_ & Hx & _). apply (Hx w Hin). left. }
      assert (p = p1) as -> by (by eapply running_unique).
      rewrite (env_same ow (fl_tasks x) T).
      2: { intros u zu Hu _ _. apply upd_other. intros <-. destruct (i_order _ _ I u u Hu) as [Hs Hb]. specialize (Hb Hs).
           destruct Hb as (l1 & l2 & E & Hin). rewrite E in Hnds. apply NoDup_app in Hnds as (_ & Hx & _). apply (Hx u Hin). left. }
      rewrite E1. destruct H1 as (e' & H1 & Hqt). exists e'. split; [by constructor|done].
    + rewrite upd_other by done. pose proof (Hrun o' p Hp) as H2. rewrite decide_False in H2.
      2: { cbn. congruence. }
      case_decide as Hdec.
      * destruct o1 as [w|]; [|done]. cbn in Hdec.
        rewrite (env_same ow (fl_tasks x) T); [done|]. intros u zu _ _ _. unfold upd. repeat case_decide; simplify_eq; done.
      * rewrite (env_same ow (fl_tasks x) T); [done|]. intros u zu Hu _ _. apply upd_other. intros <-. by apply Hdec.
  - exists T'. split; [done|]. split; [|done]. intros _. destruct o1 as [w|].
    + rewrite (HN ltac:(done)). by rewrite upd_other.
    + rewrite (HN' eq_refl). by rewrite upd_same.
Qed.

(** * One step back *)

Definition main_runs (x : flat) : Prop := ∃ p, Frame None (FRun p) ∈ fl_f x.
(** The run does [tr] from here. *)
Definition sees (x : flat) (T : option nat → list nat) (tr : list nat) : Prop :=
  (main_runs x → T None = tr) ∧ (¬ main_runs x → tr = []).

Lemma others x o pc f0 : ginv x → fl_f x ≡ₚ Frame o pc :: f0 → ∀ o' pc', Frame o' pc' ∈ f0 → o' ≠ o.
Proof.
  intros G Hf o' pc' Hi ->. pose proof (g_nodup _ G) as Hnd. rewrite Hf in Hnd. cbn in Hnd. apply NoDup_cons in Hnd as [Hn _].
  apply Hn. apply elem_of_list_fmap. eexists. split; [|exact Hi]. done.
Qed.

Lemma future_submit ow ts ps st q f o c p k f0 q' f' T : finv ow (Flat ts ps st q f) →
  f ≡ₚ Frame o (FRun (PSubmit c p k)) :: f0 → q' ≡ₚ length ts :: q → f' ≡ₚ Frame o (FRun (k (length ts))) :: f0 →
  future (ow ++ [o]) (Flat (count_in p ts ++ [Task p 1 false]) (ps ++ [c]) st q' f') T → future ow (Flat ts ps st q f) T.
Proof.
  intros I Hf Hq Hf' [F1 F2]. pose proof (i_g _ _ I) as G. cbn in *. pose proof (i_ow _ _ I) as Hl. cbn in Hl. pose proof (g_len _ G) as Hlp. cbn in Hlp.
  split; cbn.
  - intros u c0 Hu Hc. apply F1; [rewrite Hq; by right|]. by apply lookup_app_l_Some.
  - intros o' p'. rewrite Hf. intros [[= -> ->]|Hi]%elem_of_cons.
    + destruct (F2 o (k (length ts))) as (e' & H & Hqt); [rewrite Hf'; left|]. rewrite env_submit, decide_True in H by done.
      destruct (F1 (length ts) c) as (ec & Hc & Hqc); [rewrite Hq; left|rewrite lookup_app_r, Hlp, Nat.sub_diag by lia; done|].
      exists e'. split; [|done]. by eapply fj_submit.
    + pose proof (F2 o' p' ltac:(rewrite Hf'; by right)) as H. rewrite env_submit, decide_False, app_nil_r in H; [done| |done].
      intros <-. by apply (others _ _ _ _ G Hf o _ Hi).
Qed.

Lemma future_take ow ts ps st q f v c q' f' T : finv ow (Flat ts ps st q f) →
  q ≡ₚ v :: q' → ps !! v = Some c → f' ≡ₚ Frame (Some v) (FRun c) :: f →
  future ow (Flat ts ps (st ++ [v]) q' f') T → future ow (Flat ts ps st q f) T.
Proof.
  intros I Hq Hc Hf' [F1 F2]. pose proof (i_g _ _ I) as G. cbn in *. split; cbn.
  - intros u c0. rewrite Hq. intros [->|Hu]%elem_of_cons Hc0; [|by apply F1]. replace c0 with c by congruence.
    pose proof (F2 (Some v) c ltac:(rewrite Hf'; left)) as H. rewrite env_none in H; [done|].
    intros u r (z & _ & Hw & _). destruct (i_order _ _ I u v Hw) as [Hs _]. apply (ginv_disj _ v G Hs). cbn. rewrite Hq. left.
  - intros o p Hi. apply F2. rewrite Hf'. by right.
Qed.

Lemma joined_none ow x o : jinv ow x → Frame o (FRun PDone) ∈ fl_f x → ∀ u r, ¬ open_task ow (fl_tasks x) o u r.
Proof. intros J Hi u r Hu. destruct (j_run _ _ J _ _ Hi) as (P & HP & HPo). cbn in HP. subst P. apply HPo in Hu. by apply elem_of_nil in Hu. Qed.

Lemma future_done ow ts ps st q f v f0 f' T : finv ow (Flat ts ps st q f) → jinv ow (Flat ts ps st q f) →
  f ≡ₚ Frame (Some v) (FRun PDone) :: f0 → f' ≡ₚ Frame (Some v) (FSub v) :: f0 →
  future ow (Flat (alter set_done v ts) ps st q f') T → future ow (Flat ts ps st q f) (upd T (Some v) []).
Proof.
  intros I J Hf Hf' [F1 F2]. pose proof (i_g _ _ I) as G. cbn in *.
  assert (Frame (Some v) (FRun PDone) ∈ f) as Hin by (rewrite Hf; left). split; cbn.
  - intros u c Hu Hc. rewrite upd_other; [by apply F1|]. intros [= ->]. destruct (ginv_f_lt _ v _ G Hin) as (_ & _ & Hn). done.
  - intros o p. rewrite Hf. intros [[= -> ->]|Hi]%elem_of_cons.
    + rewrite upd_same. rewrite env_none; [|by apply (joined_none _ _ _ J)]. exists []. split; [constructor|by constructor].
    + pose proof (others _ _ _ _ G Hf _ _ Hi) as Hne. rewrite upd_other by done.
      eapply ends_ext; [apply F2; rewrite Hf'; by right|]. rewrite <-(env_same _ _ T (upd T (Some v) [])).
      * apply env_done. apply upd_same.
      * intros u z _ Hz Hd. apply upd_other. intros [= ->]. rewrite list_lookup_alter in Hz. destruct (ts !! v); [|done]. by injection Hz as <-.
Qed.

Lemma future_main ow ts ps st q f f' T : finv ow (Flat ts ps st q f) → jinv ow (Flat ts ps st q f) →
  f ≡ₚ Frame None (FRun PDone) :: f' →
  future ow (Flat ts ps st q f') T → future ow (Flat ts ps st q f) (upd T None []).
Proof.
  intros I J Hf [F1 F2]. pose proof (i_g _ _ I) as G. cbn in *.
  assert (Frame None (FRun PDone) ∈ f) as Hin by (rewrite Hf; left). split; cbn.
  - intros u c Hu Hc. rewrite upd_other by done. by apply F1.
  - intros o p. rewrite Hf. intros [[= -> ->]|Hi]%elem_of_cons.
    + rewrite upd_same. rewrite env_none; [|by apply (joined_none _ _ _ J)]. exists []. split; [constructor|by constructor].
    + pose proof (others _ _ _ _ G Hf _ _ Hi) as Hne. rewrite upd_other by done.
      rewrite (env_same _ _ T); [by apply F2|]. intros u z _ _ _. by apply upd_other.
Qed.

Lemma future_wait ow ts ps st q f o t k f0 f' x T : finv ow (Flat ts ps st q f) → waits_end (Flat ts ps st q f) →
  f ≡ₚ Frame o (FRun (PWait t k)) :: f0 → f' ≡ₚ Frame o (FRun k) :: f0 → ts !! t = Some x → t_ctr x = 0%N →
  future ow (Flat ts ps st q f') T → future ow (Flat ts ps st q f) T.
Proof.
  intros I Hlen Hf Hf' Hx Hz [F1 F2]. cbn in *.
  assert (Frame o (FRun (PWait t k)) ∈ f) as Hin by (rewrite Hf; left).
  destruct (i_run _ _ I o _ Hin) as (own & [Ht _] & Hown). destruct (Hown t Ht) as [_ Htp].
  assert (t_parent x = None) as Hxp. { unfold parent_of in Htp. cbn in Htp. by rewrite Hx in Htp. }
  split; cbn; [done|]. intros o' p. rewrite Hf. intros [[= -> ->]|Hi]%elem_of_cons; [|apply F2; rewrite Hf'; by right].
  destruct (F2 o k) as (e' & H & Hqt); [rewrite Hf'; left|]. exists e'. split; [|done]. constructor; [|done].
  apply Forall_forall. intros y Hy Hyt. exfalso. apply env_elem in Hy as (u & z & Hzu & Hw & Hd & Hr). rewrite Hyt in Hr.
  assert (t_done z = true) as Hd'; [|congruence].
  eapply (Hlen o t k x Hin Hx Hxp Hz); [exact Hzu|]. destruct (t_parent z); cbn in Hr; [right|left]; congruence.
Qed.

Lemma future_stop ow ts ps st q f o k f0 f' T : f ≡ₚ Frame o (FRun (PStop k)) :: f0 → f' ≡ₚ Frame o (FRun k) :: f0 →
  future ow (Flat ts ps st q f') T → future ow (Flat ts ps st q f) T.
Proof.
  intros Hf Hf' [F1 F2]. cbn in *. split; cbn; [done|]. intros o' p. rewrite Hf. intros [[= -> ->]|Hi]%elem_of_cons; [|apply F2; rewrite Hf'; by right].
  destruct (F2 o k) as (e' & H & Hqt); [rewrite Hf'; left|]. exists e'. split; [|done]. by constructor.
Qed.

(** Steps after the function of a task. *)
Lemma future_fin ow ts ps st q f ts' f' T : (∀ o, env ow ts' T o = env ow ts T o) →
  (∀ o p, Frame o (FRun p) ∈ f → Frame o (FRun p) ∈ f') → future ow (Flat ts' ps st q f') T → future ow (Flat ts ps st q f) T.
Proof. intros He Hf [F1 F2]. cbn in *. split; cbn; [done|]. intros o p Hi. rewrite <-He. by apply F2, Hf. Qed.

Lemma future_act ow ts ps st q f o a k f0 f' T tr : finv ow (Flat ts ps st q f) → jinv ow (Flat ts ps st q f) →
  f ≡ₚ Frame o (FRun (PAct a k)) :: f0 → f' ≡ₚ Frame o (FRun k) :: f0 →
  future ow (Flat ts ps st q f') T → sees (Flat ts ps st q f') T tr →
  ∃ T', future ow (Flat ts ps st q f) T' ∧ sees (Flat ts ps st q f) T' (a :: tr).
Proof.
  intros I J Hf Hf' [F1 F2] [Hs _]. pose proof (i_g _ _ I) as G. cbn in *.
  assert (Frame o (FRun (PAct a k)) ∈ f) as Hin by (rewrite Hf; left).
  assert (∀ u, o = Some u → ow !! u ≠ Some o) as Hself.
  { intros u -> Hu. destruct (i_order _ _ I u u Hu) as [Hsu Hb]. specialize (Hb Hsu). destruct Hb as (l1 & l2 & E & Hil).
    pose proof (ginv_nd _ G) as (Hnd & _)%NoDup_app. rewrite E in Hnd. apply NoDup_app in Hnd as (_ & Hx & _). apply (Hx u Hil). left. }
  destruct (climb ow (Flat ts ps st q f) a I J (S (length st)) o (upd T o (a :: T o)) (T o)) as (T' & HF & HN & HN'); cbn.
  - intros v ->. destruct (ginv_f_lt _ v _ G Hin) as (_ & Hst & _). cbn in Hst. apply elem_of_list_split in Hst as (l1 & l2 & ->).
    exists l1, l2. split; [done|]. rewrite app_length. lia.
  - by exists (PAct a k).
  - apply upd_same.
  - intros u c Hu Hc. rewrite upd_other; [by apply F1|]. intros <-. destruct (ginv_f_lt _ u _ G Hin) as (_ & _ & Hn). done.
  - intros o' p. rewrite Hf. intros [[= -> ->]|Hi]%elem_of_cons.
    + rewrite upd_same. rewrite decide_False.
      2: { destruct o as [v|]; [|done]. cbn. by apply Hself. }
      rewrite (env_same _ _ T). 2: { intros u z Hu _ _. apply upd_other. intros <-. by apply (Hself u). }
      destruct (F2 o k) as (e' & H & Hqt); [rewrite Hf'; left|]. exists e'. split; [|done]. by constructor.
    + rewrite upd_other by (by eapply others). pose proof (F2 o' p ltac:(rewrite Hf'; by right)) as H.
      case_decide as Hdec.
      * rewrite (env_same _ _ T); [done|]. intros u z _ _ _. unfold upd. repeat case_decide; simplify_eq; done.
      * rewrite (env_same _ _ T); [done|]. intros u z Hu _ _. apply upd_other. intros <-. by apply Hdec.
  - exists T'. split; [done|]. split.
    + intros [p Hp]. cbn in Hp. assert (T None = tr) as <-.
      { apply Hs. rewrite Hf in Hp. apply elem_of_cons in Hp as [[= Eo Ep]|Hp]; [exists k|exists p]; cbn; rewrite Hf'; [rewrite Eo; left|by right]. }
      destruct o as [v|]; [rewrite (HN ltac:(done)), upd_other by done; done|rewrite (HN' eq_refl), upd_same; done].
    + intros Hn. exfalso. destruct o as [v|]; [|apply Hn; by eexists].
      destruct (ginv_f_lt _ v _ G Hin) as (Hlt & _). destruct (lookup_lt_is_Some_2 _ _ Hlt) as [z Hz].
      assert (t_done z = true) as Hd. { eapply (joined_all_done _ _ I J); [|exact Hz]. intros p Hp. apply Hn. by exists p. }
      destruct (g_undone _ G v z Hz Hd) as [_ Hno]. by apply Hno in Hin.
Qed.

Definition lab (c : core) (w : nat) : option nat :=
  match c_ss c !! w with Some (Frame _ (FRun (PAct a _)) :: _) => Some a | _ => None end.
Lemma act_of_lab s w : act_of s w = lab (core_of s) w.
Proof. unfold act_of, lab. cbn. rewrite list_lookup_fmap. by destruct (p_workers s !! w). Qed.

Lemma pool_step_act s w v s' a : act_of s w = Some a → pool_step s w v = Some s' → ∃ o k st,
  c_ss (core_of s) !! w = Some (Frame o (FRun (PAct a k)) :: st) ∧
  core_of s' = Core (p_tasks s) (p_progs s) (p_started s) (c_qs (core_of s)) (<[w := Frame o (FRun k) :: st]> (c_ss (core_of s))).
Proof.
  unfold act_of, pool_step. destruct (p_workers s !! w) as [x|] eqn:Hx; [|done]. cbn.
  destruct (w_stack x) as [|[o [[|? ? ?|? ?|?|b k]|?|?]] st] eqn:Hst; try done. intros [= ->] [= <-]. exists o, k, st. split.
  - by rewrite list_lookup_fmap, Hx, <-Hst.
  - unfold core_of. cbn. by rewrite (fmap_alter_set w_stack _ w _ x Hx), (fmap_alter_same w_queue) by done.
Qed.

Lemma sees_same x y T tr : (main_runs x ↔ main_runs y) → sees y T tr → sees x T tr.
Proof. intros H [H1 H2]. split; [intros Hx; by apply H1, H|intros Hx; apply H2; by rewrite <-H]. Qed.

Lemma future_step l ow c w c' T tr : cstep l c w c' → lab c w = None → finv ow (flat_of c) → jinv ow (flat_of c) →
  waits_end (flat_of c) →
  future (ow ++ option_list l) (flat_of c') T → sees (flat_of c') T tr →
  ∃ T', future ow (flat_of c) T' ∧ sees (flat_of c) T' tr.
Proof.
  intros [ts ps sd qs ss w0 o cc p k st q Hs Hq|ts ps sd qs ss w0 st j q1 u q2 cc Hs Hq Hc
         |ts ps sd qs ss w0 o pc st ts' pc' Hs Hg|ts ps sd qs ss w0 fr st Hs Hg] Hlab I J Hlen HF HS;
    unfold flat_of in *; cbn [c_tasks c_progs c_started c_qs c_ss option_list] in *; rewrite ?app_nil_r in HF.
  - destruct (concat_insert _ _ _ Hs) as (r & Hr & Hr'). destruct (concat_insert _ _ _ Hq) as (rq & Hrq & Hrq').
    specialize (Hr' (Frame o (FRun (k (length ts))) :: st)). cbn in Hr, Hr'.
    exists T. split.
    + eapply (future_submit ow ts ps sd (concat qs) (concat ss) o cc p k (st ++ r)); [done|done| |exact Hr'|exact HF].
      rewrite Hrq', Hrq. solve_Permutation.
    + eapply sees_same; [|exact HS]. unfold main_runs. cbn. setoid_rewrite Hr. setoid_rewrite Hr'. split; intros [p' Hp'].
      * apply elem_of_cons in Hp' as [[= -> ->]|Hp']; [eexists; left|exists p'; by right].
      * apply elem_of_cons in Hp' as [[= -> ->]|Hp']; [eexists; left|exists p'; by right].
  - destruct (concat_insert _ _ _ Hs) as (r & Hr & Hr'). destruct (concat_insert _ _ _ Hq) as (rq & Hrq & Hrq').
    assert (concat (<[w0:=Frame (Some u) (FRun cc) :: st]> ss) ≡ₚ Frame (Some u) (FRun cc) :: concat ss) as Hf' by (rewrite Hr', Hr; done).
    exists T. split.
    + eapply (future_take ow ts ps sd (concat qs) (concat ss) u cc); [done| |done|exact Hf'|exact HF].
      rewrite Hrq', Hrq. solve_Permutation.
    + eapply sees_same; [|exact HS]. unfold main_runs. cbn. setoid_rewrite Hf'. split; intros [p' Hp'].
      * exists p'. by right.
      * apply elem_of_cons in Hp' as [[=]|Hp']. by exists p'.
  - destruct (concat_insert _ _ _ Hs) as (r & Hr & Hr').
    assert (concat ss ≡ₚ Frame o pc :: (st ++ r)) as H1 by (rewrite Hr; done).
    assert (concat (<[w0:=Frame o pc' :: st]> ss) ≡ₚ Frame o pc' :: (st ++ r)) as H2 by (rewrite Hr'; done).
    clear Hr Hr'.
    assert ((o = None → (∃ p, pc = FRun p) ∧ ∃ p, pc' = FRun p) → main_runs (Flat ts ps sd (concat qs) (concat ss)) ↔
      main_runs (Flat ts' ps sd (concat qs) (concat (<[w0:=Frame o pc' :: st]> ss)))) as Hm.
    { intros Ho. unfold main_runs. cbn. setoid_rewrite H1. setoid_rewrite H2. split; intros [p' Hp'].
      - apply elem_of_cons in Hp' as [[= <- <-]|Hp']; [|exists p'; by right]. destruct (Ho eq_refl) as [_ [p2 ->]]. exists p2. left.
      - apply elem_of_cons in Hp' as [[= <- <-]|Hp']; [|exists p'; by right]. destruct (Ho eq_refl) as [[p2 ->] _]. exists p2. left. }
    assert (∀ t, pc = FSub t ∨ pc = FCheck t → o ≠ None) as Hfin.
    { intros t Ht ->. destruct (i_main _ _ I pc) as [p Hp]; [cbn; rewrite H1; left|]. destruct Ht; congruence. }
    destruct Hg as [v ->|t k x Hx Hz|k|a k|t|t x p Hx Hz Hp].
    + exists (upd T (Some v) []). split; [by eapply future_done|]. eapply sees_same; [apply Hm; by intros [=]|].
      destruct HS as [HS1 HS2]. split; [|done]. by rewrite upd_other.
    + exists T. split; [by eapply future_wait|]. eapply sees_same; [apply Hm; eauto|done].
    + exists T. split; [by eapply future_stop|]. eapply sees_same; [apply Hm; eauto|done].
    + exfalso. unfold lab in Hlab. cbn in Hlab. by rewrite Hs in Hlab.
    + exists T. split.
      * eapply (future_fin ow _ _ _ _ _ _ _ _ (λ o, env_ctr _ _ _ _ _ _)); [|exact HF].
        intros o' p'. rewrite H1, H2. intros [[=]|Hi]%elem_of_cons. by right.
      * eapply sees_same; [apply Hm; intros ->; by destruct (Hfin t (or_introl eq_refl))|done].
    + exists T. split.
      * eapply (future_fin ow ts); [done| |exact HF].
        intros o' p'. rewrite H1, H2. intros [[=]|Hi]%elem_of_cons. by right.
      * eapply sees_same; [apply Hm; intros ->; by destruct (Hfin t (or_intror eq_refl))|done].
  - destruct (concat_insert _ _ _ Hs) as (r & Hr & Hr').
    assert (concat ss ≡ₚ fr :: concat (<[w0:=st]> ss)) as H1 by (rewrite Hr, Hr'; done). clear Hr Hr'.
    destruct Hg as [|o t x Hx Hend].
    + exists (upd T None []). split; [by eapply future_main|]. destruct HS as [_ HS2].
      assert (tr = []) as ->.
      { apply HS2. intros [p Hp]. cbn in Hp. by apply (others _ _ _ _ (i_g _ _ I) H1 _ _ Hp). }
      split; [|done]. by rewrite upd_same.
    + exists T. split.
      * eapply (future_fin ow ts); [done| |exact HF]. intros o' p'. rewrite H1. by intros [[=]|Hi]%elem_of_cons.
      * eapply sees_same; [|done]. unfold main_runs. cbn. setoid_rewrite H1. split; intros [p' Hp'].
        -- apply elem_of_cons in Hp' as [[=]|Hp']. by exists p'.
        -- exists p'. by right.
Qed.

(** A run that ends without the call of the main program, in which every wait waits long enough. *)
Lemma run_future_gen s tr s' : pool_run s tr s' → ∀ ow, finv ow (flat_of (core_of s)) → jinv ow (flat_of (core_of s)) →
  (∀ t1 s1 t2 ow1, pool_run s t1 s1 → pool_run s1 t2 s' → finv ow1 (flat_of (core_of s1)) → waits_end (flat_of (core_of s1))) →
  ¬ main_runs (flat_of (core_of s')) →
  ∃ T, future ow (flat_of (core_of s)) T ∧ sees (flat_of (core_of s)) T tr.
Proof.
  induction 1 as [s|s w v s1 tr s' Hst Hr IH]; intros ow I J HW Hn.
  - exists (λ _, []). assert (∀ u z, p_tasks s !! u = Some z → t_done z = true) as Hd.
    { apply (joined_all_done _ _ I J). intros p Hp. apply Hn. by exists p. }
    pose proof (i_g _ _ I) as G. split; [|by split]. split.
    + intros u c Hu _. exfalso. pose proof (ginv_q_lt _ u G Hu) as Hlt. destruct (lookup_lt_is_Some_2 _ _ Hlt) as [z Hz].
      destruct (g_undone _ G u z Hz (Hd u z Hz)) as [Hs _]. by apply (ginv_disj _ u G Hs).
    + intros o p Hp. exfalso. destruct o as [v|]; [|apply Hn; by exists p].
      destruct (ginv_f_lt _ v _ G Hp) as (Hlt & _). destruct (lookup_lt_is_Some_2 _ _ Hlt) as [z Hz].
      destruct (g_undone _ G v z Hz (Hd v z Hz)) as [_ Hno]. by apply Hno in Hp.
  - assert (waits_end (flat_of (core_of s))) as Hb by (eapply (HW [] s); [constructor|by econstructor|done]).
    assert (∀ t1 s2 t2 ow1, pool_run s1 t1 s2 → pool_run s2 t2 s' → finv ow1 (flat_of (core_of s2)) → waits_end (flat_of (core_of s2))) as HW1.
    { intros t1 s2 t2 ow1 H1 H2. eapply (HW _ s2); [by econstructor|exact H2]. }
    destruct (act_of s w) as [a|] eqn:Ha.
    + destruct (pool_step_act s w v s1 a Ha Hst) as (o & k & st & Hs & E).
      assert (cstep None (core_of s) w (core_of s1)) as Hc.
      { rewrite E. unfold core_of at 1. cbn. eapply cs_go; [exact Hs|constructor]. }
      pose proof (finv_step _ _ _ _ (cstep_flat _ _ _ _ Hc) I) as I1. cbn [option_list] in I1. rewrite app_nil_r in I1.
      pose proof (jinv_step_gen _ _ _ _ (cstep_flat _ _ _ _ Hc) I Hb J) as J1. cbn [option_list] in J1. rewrite app_nil_r in J1.
      destruct (IH ow I1 J1 HW1 Hn) as (T & HF & HS). cbn [option_list].
      destruct (concat_insert _ _ _ Hs) as (r & Hr1 & Hr2). specialize (Hr2 (Frame o (FRun k) :: st)). cbn in Hr1, Hr2.
      rewrite E in HF, HS. clear HW HW1. unfold flat_of in *. cbn [c_tasks c_progs c_started c_qs c_ss core_of] in *.
      by eapply future_act.
    + cbn [option_list app]. apply pool_step_core in Hst as [E|[l Hc]].
      { rewrite <-E in I, J |- *. by apply IH. }
      rewrite act_of_lab in Ha.
      pose proof (finv_step _ _ _ _ (cstep_flat _ _ _ _ Hc) I) as I1.
      pose proof (jinv_step_gen _ _ _ _ (cstep_flat _ _ _ _ Hc) I Hb J) as J1.
      destruct (IH _ I1 J1 HW1 Hn) as (T & HF & HS). by eapply future_step.
Qed.

Lemma run_tasks s tr s' : pool_run s tr s' → length (p_tasks s) ≤ length (p_tasks s').
Proof.
  induction 1 as [|s w v s1 tr s' Hst Hr IH]; [done|]. etransitivity; [|exact IH].
  apply pool_step_core in Hst as [E|[l Hc]]; [change (p_tasks s1) with (c_tasks (core_of s1)); by rewrite E|].
  by apply pool_step_tasks in Hc.
Qed.
Lemma run_future s tr s' : pool_run s tr s' → ∀ ow, finv ow (flat_of (core_of s)) → jinv ow (flat_of (core_of s)) →
  (N.of_nat (length (p_tasks s')) < ctr_mod)%N → ¬ main_runs (flat_of (core_of s')) →
  length (p_tasks s) ≤ length (p_tasks s') ∧ ∃ T, future ow (flat_of (core_of s)) T ∧ sees (flat_of (core_of s)) T tr.
Proof.
  intros Hr ow I J Hlen Hn. split; [by eapply run_tasks|]. eapply run_future_gen; [exact Hr|done|done| |done].
  intros t1 s1 t2 ow1 _ H2 I1. eapply waits_end_few; [exact I1|]. apply run_tasks in H2. change (N.of_nat (length (p_tasks s1)) < ctr_mod)%N. lia.
Qed.

(** * Orders without tasks *)

(** [t] is made of [tm] and of what the pending tasks do. *)
Inductive merge : pending → list nat → list nat → pending → Prop :=
  | merge_nil e : merge e [] [] e
  | merge_own e a tm t e' : merge e tm t e' → merge e (a :: tm) (a :: t) e'
  | merge_task e1 r a l e2 tm t e' : merge (e1 ++ (r, l) :: e2) tm t e' → merge (e1 ++ (r, a :: l) :: e2) tm (a :: t) e'.

Lemma merge_app e tm t e' tm' t' e'' : merge e tm t e' → merge e' tm' t' e'' → merge e (tm ++ tm') (t ++ t') e''.
Proof. intros H H'. induction H; cbn; [done|constructor; auto|constructor; auto]. Qed.
Lemma merge_roots e tm t e' : merge e tm t e' → e'.*1 = e.*1.
Proof. induction 1 as [e|e a tm t e' _ IH|e1 r a l e2 tm t e' _ IH]; [done|done|]. rewrite IH. by rewrite !fmap_app. Qed.
Lemma merge_frame e tm t e' z : merge e tm t e' → merge (e ++ z) tm t (e' ++ z).
Proof.
  induction 1 as [e|e a tm t e' _ IH|e1 r a l e2 tm t e' _ IH]; [constructor|by constructor|].
  rewrite <-app_assoc in *. cbn in *. by constructor.
Qed.
Lemma merge_empty tm t e' : merge [] tm t e' → t = tm.
Proof.
  intros H. remember [] as e eqn:E. induction H as [e|e a tm t e' _ IH|e1 r a l e2 tm t e' _ IH]; [done|f_equal; auto|by destruct e1].
Qed.

(** Where an entry is. *)
Lemma app_split (e1 : pending) x e2 e z : e1 ++ x :: e2 = e ++ z →
  (∃ e3, e = e1 ++ x :: e3 ∧ e2 = e3 ++ z) ∨ (∃ z1, z = z1 ++ x :: e2 ∧ e1 = e ++ z1).
Proof.
  revert e. induction e1 as [|y e1 IH]; intros [|y' e] E; cbn in E.
  - right. exists []. by rewrite <-E.
  - injection E as <- ->. left. by exists e.
  - right. exists (y :: e1). by rewrite <-E.
  - injection E as <- E. destruct (IH e E) as [(e3 & -> & ->)|(z1 & -> & ->)]; [left; by exists e3|right; by exists z1].
Qed.
Lemma merge_quiet e z tm t e' : quiet z → merge (e ++ z) tm t e' → ∃ e'', e' = e'' ++ z ∧ merge e tm t e''.
Proof.
  intros Hz H. remember (e ++ z) as f eqn:E. revert e E. induction H as [f|f a tm t e' _ IH|e1 r a l e2 tm t e' _ IH]; intros e E.
  - exists e. split; [done|constructor].
  - destruct (IH e E) as (e'' & -> & ?). exists e''. split; [done|by constructor].
  - apply app_split in E as [(e3 & -> & ->)|(z1 & -> & ->)].
    + destruct (IH (e1 ++ (r, l) :: e3)) as (e'' & -> & ?); [by rewrite <-app_assoc|]. exists e''. split; [done|by constructor].
    + apply Forall_app in Hz as [_ Hz]. apply Forall_cons in Hz as [Hz _]. done.
Qed.

(** The tasks [z] end inside. *)
Lemma merge_inside e z tm t e' z' : merge (e ++ z) tm t (e' ++ z') → length z' = length z → quiet z' →
  ∃ u, interleave (tm :: z.*2) u ∧ merge e u t e'.
Proof.
  intros H. remember (e ++ z) as f eqn:E. remember (e' ++ z') as f' eqn:E'. revert e z E. 
  induction H as [f|f a tm t f' _ IH|e1 r a l e2 tm t f' _ IH]; intros e z E Hl Hq.
  - subst f. apply app_inj_2 in E as [-> ->]; [|done]. exists []. split; [|constructor]. constructor. constructor; [done|].
    apply Forall_fmap. eapply Forall_impl; [exact Hq|]. done.
  - destruct (IH E' e z E Hl Hq) as (u & Hu & Hm). exists (a :: u). split; [|by constructor]. by eapply (interleave_cons _ 0).
  - apply app_split in E as [(e3 & -> & ->)|(z1 & -> & ->)].
    + destruct (IH E' (e1 ++ (r, l) :: e3) z) as (u & Hu & Hm); [by rewrite <-app_assoc|done|done|]. exists u. split; [done|by constructor].
    + destruct (IH E' e (z1 ++ (r, l) :: e2)) as (u & Hu & Hm); [by rewrite <-app_assoc|by rewrite Hl, !app_length|done|].
      exists (a :: u). split; [|by constructor]. eapply (interleave_cons _ (S (length z1)) a l).
      * change ((z1 ++ (r, a :: l) :: e2).*2 !! length z1 = Some (a :: l)). rewrite fmap_app, lookup_app_r by (rewrite fmap_length; lia). by rewrite fmap_length, Nat.sub_diag.
      * change (interleave (tm :: <[length z1 := l]> (z1 ++ (r, a :: l) :: e2).*2) u). rewrite fmap_app in *. rewrite insert_app_r_alt by (rewrite fmap_length; lia). by rewrite fmap_length, Nat.sub_diag.
Qed.

(** Pending tasks before the next step of the program. *)
Lemma fj_before e t e' p t' e'' : merge e [] t e' → fj e' p t' e'' → fj e p (t ++ t') e''.
Proof.
  intros H. remember [] as tm eqn:E. induction H as [e|e a tm t e' _ IH|e1 r a l e2 tm t e' _ IH]; intros Hf; cbn; [done|done|].
  constructor. by apply IH.
Qed.
Definition headed (e : pending) (p : prog) (t : list nat) (e' : pending) : Prop :=
  match p with
  | PDone => t = [] ∧ e' = e
  | PAct a k => ∃ t', t = a :: t' ∧ fj e k t' e'
  | PSubmit c o k => ∃ n tc, ends [] c tc ∧ fj (e ++ [(default n o, tc)]) (k n) t e'
  | PWait r k => Forall (λ x, x.1 = r → x.2 = []) e ∧ fj e k t e'
  | PStop k => fj e k t e'
  end.
Lemma fj_head e p t e' : fj e p t e' → ∃ t1 t2 e1, t = t1 ++ t2 ∧ merge e [] t1 e1 ∧ headed e1 p t2 e'.
Proof.
  induction 1 as [e|e a k t e' H _|e1 r a l e2 p t e' _ IH|e c o k n tc ec t e' Hc _ Hq H _|e r k t e' Hw H _|e k t e' H _].
  - exists [], [], e. split; [done|]. split; [constructor|done].
  - exists [], (a :: t), e. split; [done|]. split; [constructor|]. by exists t.
  - destruct IH as (t1 & t2 & e3 & -> & Hm & Hh). exists (a :: t1), t2, e3. split; [done|]. split; [by constructor|done].
  - exists [], t, e. split; [done|]. split; [constructor|]. exists n, tc. split; [by exists ec|done].
  - exists [], t, e. split; [done|]. split; [constructor|]. done.
  - exists [], t, e. split; [done|]. split; [constructor|]. done.
Qed.

Lemma fj_seq p q : ∀ e t e', fj e (seq_prog p q) t e' → ∃ t1 t2 e1, t = t1 ++ t2 ∧ fj e p t1 e1 ∧ fj e1 q t2 e'.
Proof.
  induction p as [|c _ o k IHk|r k IHk|k IHk|a k IHk]; cbn; intros e t e' H.
  - exists [], t, e. split; [done|]. split; [constructor|done].
  - apply fj_head in H as (t1 & t2 & e1 & -> & Hm & n & tc & (ec & Hc & Hq) & Hh).
    destruct (IHk n _ _ _ Hh) as (t3 & t4 & e2 & -> & H1 & H2). exists (t1 ++ t3), t4, e2. split; [by rewrite app_assoc|].
    split; [|done]. eapply fj_before; [exact Hm|]. by eapply fj_submit.
  - apply fj_head in H as (t1 & t2 & e1 & -> & Hm & Hw & Hh). destruct (IHk _ _ _ Hh) as (t3 & t4 & e2 & -> & H1 & H2).
    exists (t1 ++ t3), t4, e2. split; [by rewrite app_assoc|]. split; [|done]. eapply fj_before; [exact Hm|]. by constructor.
  - apply fj_head in H as (t1 & t2 & e1 & -> & Hm & Hh). destruct (IHk _ _ _ Hh) as (t3 & t4 & e2 & -> & H1 & H2).
    exists (t1 ++ t3), t4, e2. split; [by rewrite app_assoc|]. split; [|done]. eapply fj_before; [exact Hm|]. by constructor.
  - apply fj_head in H as (t1 & t2 & e1 & -> & Hm & t' & -> & Hh). destruct (IHk _ _ _ Hh) as (t3 & t4 & e2 & -> & H1 & H2).
    exists (t1 ++ a :: t3), t4, e2. split; [by rewrite <-app_assoc|]. split; [|done]. eapply fj_before; [exact Hm|]. by constructor.
Qed.

Lemma fj_submit_some r k e' : ∀ bs e t, fj e (submit_all (Some r) bs k) t e' →
  ∃ tcs, Forall2 (ends []) bs tcs ∧ fj (e ++ ((λ tc, (r, tc)) <$> tcs)) (k (Some r)) t e'.
Proof.
  induction bs as [|b bs IH]; cbn; intros e t H.
  - exists []. split; [done|]. cbn. by rewrite app_nil_r.
  - apply fj_head in H as (t1 & t2 & e1 & -> & Hm & n & tc & Hc & Hh). cbn in Hh.
    destruct (IH _ _ Hh) as (tcs & Hb & Hk). exists (tc :: tcs). split; [by constructor|]. cbn.
    rewrite <-app_assoc in Hk. cbn in Hk. eapply fj_before; [|exact Hk]. by apply merge_frame.
Qed.
Lemma fj_submit_none k b bs e t e' : fj e (submit_all None (b :: bs) k) t e' →
  ∃ r tcs, Forall2 (ends []) (b :: bs) tcs ∧ fj (e ++ ((λ tc, (r, tc)) <$> tcs)) (k (Some r)) t e'.
Proof.
  cbn. intros H. apply fj_head in H as (t1 & t2 & e1 & -> & Hm & n & tc & Hc & Hh). cbn in Hh.
  apply fj_submit_some in Hh as (tcs & Hb & Hk). exists n, (tc :: tcs). split; [by constructor|]. cbn.
  rewrite <-app_assoc in Hk. cbn in Hk. eapply fj_before; [|exact Hk]. by apply merge_frame.
Qed.

(** What the code does beside other tasks: they and it are merged, and the tasks it submitted are finished. *)
Definition orderly (c : code) : Prop := ∀ e t e1, fj e (comp c) t e1 →
  ∃ tm e' z, e1 = e' ++ z ∧ quiet z ∧ order c tm ∧ merge e tm t e'.

Lemma orderly_mains ms : Forall orderly ms → ∀ q e t e1, fj e (foldr seq_prog q (comp <$> ms)) t e1 →
  ∃ t1 t2 tms e2 z, t = t1 ++ t2 ∧ Forall2 order ms tms ∧ quiet z ∧ merge e (concat tms) t1 e2 ∧ fj (e2 ++ z) q t2 e1.
Proof.
  intros Hms. induction Hms as [|m ms Hm _ IH]; cbn; intros q e t e1 H.
  - exists [], t, [], e, []. split; [done|]. split; [done|]. split; [by constructor|]. split; [constructor|by rewrite app_nil_r].
  - apply fj_seq in H as (t1 & t2 & e2 & -> & H1 & H2). apply Hm in H1 as (tm & e3 & z & -> & Hz & Ho & Hmg).
    apply IH in H2 as (t3 & t4 & tms & e4 & z' & -> & Hos & Hz' & Hmg' & Hq).
    apply merge_quiet in Hmg' as (e5 & -> & Hmg'); [|done].
    exists (t1 ++ t3), t4, (tm :: tms), e5, (z ++ z'). split; [by rewrite app_assoc|]. split; [by constructor|]. split; [by apply Forall_app|].
    split; [by eapply merge_app|by rewrite app_assoc].
Qed.

Lemma fj_done_inv e t e' : fj e PDone t e' → merge e [] t e'.
Proof. intros H. apply fj_head in H as (t1 & t2 & e1 & -> & Hm & -> & ->). by rewrite app_nil_r. Qed.

Lemma orderly_ends c t : orderly c → ends [] (comp c) t → order c t.
Proof.
  intros Hc (e' & H & _). apply Hc in H as (tm & e1 & z & _ & _ & Ho & Hm). by apply merge_empty in Hm as ->.
Qed.

Lemma interleave_one {A} (l : list A) : interleave [l] l.
Proof. induction l as [|x l IH]; [by repeat constructor|]. by eapply (interleave_cons _ 0). Qed.

Lemma orderly_batch cs ms e t e2 : Forall orderly cs → Forall orderly ms → fj e (batch_call (comp <$> cs) (comp <$> ms)) t e2 →
  ∃ tcs tms u e' z, e2 = e' ++ z ∧ quiet z ∧ Forall2 order cs tcs ∧ Forall2 order ms tms ∧
    interleave (concat tms :: tcs) u ∧ merge e u t e'.
Proof.
  intros Hcs Hms H1.
  unfold batch_call in H1. destruct cs as [|c cs].
  - cbn in H1. apply (orderly_mains ms Hms) in H1 as (t3 & t4 & tms & e3 & z & -> & Ho & Hz & Hm & Hd). apply fj_done_inv in Hd.
    apply merge_quiet in Hd as (e4 & -> & Hd); [|done]. exists [], tms, (concat tms), e4, z.
    split; [done|]. split; [done|]. split; [done|]. split; [done|]. split; [apply interleave_one|].
    rewrite <-(app_nil_r (concat tms)). by eapply merge_app.
  - rewrite fmap_cons in H1. apply fj_submit_none in H1 as (r & tcs & Hb & H1). rewrite <-fmap_cons in Hb.
    apply (orderly_mains ms Hms) in H1 as (t3 & t4 & tms & e3 & z & -> & Ho & Hz & Hm & Hd). cbn [wait_parent] in Hd.
    apply fj_head in Hd as (t5 & t6 & e4 & -> & Hm1 & Hw & Hd). apply fj_done_inv in Hd.
    apply merge_quiet in Hm1 as (e5 & -> & Hm1); [|done]. apply Forall_app in Hw as [Hw _].
    pose proof (merge_app _ _ _ _ _ _ _ Hm Hm1) as Hmm. rewrite app_nil_r in Hmm.
    pose proof (merge_roots _ _ _ _ Hmm) as Hroots. rewrite fmap_app, <-list_fmap_compose in Hroots.
    set (x := ((λ tc, (r, tc)) <$> tcs : pending)) in *.
    assert (∃ e6 x', e5 = e6 ++ x' ∧ length x' = length x ∧ quiet x') as (e6 & x' & -> & Hlx & Hqx).
    { exists (take (length e) e5), (drop (length e) e5). split; [by rewrite take_drop|].
      assert (length e5 = length e + length x) as Hl5.
      { rewrite <-(fmap_length fst e5), Hroots, app_length, !fmap_length. unfold x. by rewrite fmap_length. }
      split; [rewrite drop_length; lia|]. apply Forall_lookup. intros i y Hy. rewrite lookup_drop in Hy.
      rewrite Forall_lookup in Hw. apply (Hw _ _ Hy).
      assert ((e5.*1) !! (length e + i) = Some y.1) as Hr by (by rewrite list_lookup_fmap, Hy).
      rewrite Hroots, lookup_app_r, fmap_length in Hr by (rewrite fmap_length; lia). rewrite list_lookup_fmap in Hr.
      destruct (tcs !! _); [|done]. by injection Hr as <-. }
    apply merge_inside in Hmm as (u & Hi & Hmm); [|done|done].
    assert (x.*2 = tcs) as Hx2. { unfold x. rewrite <-list_fmap_compose. apply list_fmap_id. }
    rewrite Hx2 in Hi. rewrite <-app_assoc in Hd. apply merge_quiet in Hd as (e7 & -> & Hd); [|by apply Forall_app].
    exists tcs, tms, u, e7, (x' ++ z). split; [done|]. split; [by apply Forall_app|]. split.
    { clear -Hb Hcs. rewrite Forall2_fmap_l in Hb. revert Hcs. induction Hb as [|? ? ? ? Hc _ IH]; intros Hcs; [constructor|].
      apply Forall_cons in Hcs as [Hc' Hcs]. constructor; [by apply orderly_ends|by apply IH]. }
    split; [done|]. split; [done|]. rewrite <-(app_nil_r u), app_assoc. by eapply merge_app.
Qed.
Lemma orderly_fork cs ms k : Forall orderly cs → Forall orderly ms → orderly k → orderly (CFork cs ms k).
Proof.
  intros Hcs Hms Hk e t e1 H. cbn in H. apply fj_seq in H as (t1 & t2 & e2 & -> & H1 & H2).
  apply (orderly_batch cs ms) in H1 as (tcs & tms & u & e' & z & -> & Hz & Hocs & Homs & Hi & Hm); [|done|done].
  apply Hk in H2 as (tm & e3 & z' & -> & Hz' & Ho & Hm'). apply merge_quiet in Hm' as (e4 & -> & Hm'); [|done].
  exists (u ++ tm), e4, (z ++ z'). split; [by rewrite app_assoc|]. split; [by apply Forall_app|]. split; [by econstructor|by eapply merge_app].
Qed.

Fixpoint code_ind' (P : code → Prop) (HD : P CDone) (HA : ∀ a k, P k → P (CAct a k))
    (HF : ∀ cs ms k, Forall P cs → Forall P ms → P k → P (CFork cs ms k)) (c : code) : P c :=
  match c with
  | CDone => HD
  | CAct a k => HA a k (code_ind' P HD HA HF k)
  | CFork cs ms k =>
    let all := fix all (l : list code) : Forall P l :=
      match l with [] => Forall_nil_2 P | c :: l => Forall_cons_2 P c l (code_ind' P HD HA HF c) (all l) end in
    HF cs ms k (all cs) (all ms) (code_ind' P HD HA HF k)
  end.

Lemma orderly_all c : orderly c.
Proof.
  induction c as [|a k IH|cs ms k Hcs Hms IH] using code_ind'.
  - intros e t e1 H. apply fj_done_inv in H. exists [], e1, []. split; [by rewrite app_nil_r|]. split; [by constructor|]. split; [constructor|done].
  - intros e t e1 H. cbn in H. apply fj_head in H as (t1 & t2 & e2 & -> & Hm & t' & -> & H).
    apply IH in H as (tm & e' & z & -> & Hz & Ho & Hm'). exists (a :: tm), e', z. split; [done|]. split; [done|]. split; [by constructor|].
    apply (merge_app _ [] _ _ _ _ _ Hm). by constructor.
  - by apply orderly_fork.
Qed.
