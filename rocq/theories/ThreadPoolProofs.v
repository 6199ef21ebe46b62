(** Proofs about the thread pool: an invariant of the counters, and why fork-join programs do not block. *)
From Verif Require Import Base Task ThreadPool.
Ltac Zify.zify_post_hook ::= Z.div_mod_to_equations.
Local Open Scope nat_scope.

Notation cnt := sum_list_with.

(** * Fork-join programs *)

(** A function uses tasks as fork-join programs do: it waits only for tasks it submitted itself, and gives as
    parents only tasks without parent it submitted itself; [own] are these tasks. *)
Fixpoint fork_join (own : list nat) (p : prog) : Prop :=
  match p with
  | PDone => True
  | PSubmit c None k => fork_join [] c ∧ ∀ n, fork_join (n :: own) (k n)
  | PSubmit c (Some q) k => q ∈ own ∧ fork_join [] c ∧ ∀ n, fork_join own (k n)
  | PWait t k => t ∈ own ∧ fork_join own k
  | PStop k => fork_join own k
  | PAct _ k => fork_join own k
  end.

(** * The pool without the workers *)

Record flat := Flat {
  fl_tasks : list task;
  fl_progs : list prog;
  fl_started : list nat;
  fl_q : list nat;
  fl_f : list frame }.

Definition count_in (p : option nat) (ts : list task) : list task :=
  match p with Some p => alter (upd_ctr inc16) p ts | None => ts end.

(** The steps, up to the order of the queues and calls; the label is the submitter of a new task. *)
Inductive fstep : option (option nat) → flat → flat → Prop :=
  | fs_submit ts ps st q f o c p k f0 q' f' :
      f ≡ₚ Frame o (FRun (PSubmit c p k)) :: f0 → q' ≡ₚ length ts :: q →
      f' ≡ₚ Frame o (FRun (k (length ts))) :: f0 →
      fstep (Some o) (Flat ts ps st q f) (Flat (count_in p ts ++ [Task p 1 false]) (ps ++ [c]) st q' f')
  | fs_take ts ps st q f v c q' f' :
      q ≡ₚ v :: q' → ps !! v = Some c → f' ≡ₚ Frame (Some v) (FRun c) :: f →
      fstep None (Flat ts ps st q f) (Flat ts ps (st ++ [v]) q' f')
  | fs_done ts ps st q f v f0 f' :
      f ≡ₚ Frame (Some v) (FRun PDone) :: f0 → f' ≡ₚ Frame (Some v) (FSub v) :: f0 →
      fstep None (Flat ts ps st q f) (Flat (alter set_done v ts) ps st q f')
  | fs_main ts ps st q f f' :
      f ≡ₚ Frame None (FRun PDone) :: f' →
      fstep None (Flat ts ps st q f) (Flat ts ps st q f')
  | fs_wait ts ps st q f o t k f0 f' x :
      f ≡ₚ Frame o (FRun (PWait t k)) :: f0 → f' ≡ₚ Frame o (FRun k) :: f0 →
      ts !! t = Some x → t_ctr x = 0%N →
      fstep None (Flat ts ps st q f) (Flat ts ps st q f')
  | fs_stop ts ps st q f o k f0 f' :
      f ≡ₚ Frame o (FRun (PStop k)) :: f0 → f' ≡ₚ Frame o (FRun k) :: f0 →
      fstep None (Flat ts ps st q f) (Flat ts ps st q f')
  | fs_act ts ps st q f o a k f0 f' :
      f ≡ₚ Frame o (FRun (PAct a k)) :: f0 → f' ≡ₚ Frame o (FRun k) :: f0 →
      fstep None (Flat ts ps st q f) (Flat ts ps st q f')
  | fs_sub ts ps st q f o t f0 f' :
      f ≡ₚ Frame o (FSub t) :: f0 → f' ≡ₚ Frame o (FCheck t) :: f0 →
      fstep None (Flat ts ps st q f) (Flat (alter (upd_ctr dec16) t ts) ps st q f')
  | fs_up ts ps st q f o t f0 f' x p :
      f ≡ₚ Frame o (FCheck t) :: f0 → f' ≡ₚ Frame o (FSub p) :: f0 →
      ts !! t = Some x → t_ctr x = 0%N → t_parent x = Some p →
      fstep None (Flat ts ps st q f) (Flat ts ps st q f')
  | fs_end ts ps st q f o t f' x :
      f ≡ₚ Frame o (FCheck t) :: f' →
      ts !! t = Some x → t_ctr x ≠ 0%N ∨ t_parent x = None →
      fstep None (Flat ts ps st q f) (Flat ts ps st q f').

Definition parent_of (ts : list task) (v : nat) : option nat := ts !! v ≫= t_parent.

(** What a queued task and a call still have to subtract from the counter of the root task [t]. *)
Definition wq (ts : list task) (t v : nat) : nat :=
  if decide (v = t ∨ parent_of ts v = Some t) then 1 else 0.
Definition wf (ts : list task) (t : nat) (fr : frame) : nat :=
  match f_task fr with
  | None => 0
  | Some v =>
    match f_pc fr with
    | FRun _ => wq ts t v
    | FSub x => if decide (x = t ∨ x = v ∧ parent_of ts v = Some t) then 1 else 0
    | FCheck x => if decide (x = v ∧ parent_of ts v = Some t) then 1 else 0
    end
  end.
(** The same for a child task [c], which only its own execution counts down. *)
Definition bq (c v : nat) : nat := if decide (v = c) then 1 else 0.
Definition bf (c : nat) (fr : frame) : nat :=
  match f_task fr, f_pc fr with
  | Some v, FRun _ => bq c v
  | Some v, FSub x => if decide (v = c ∧ x = c) then 1 else 0
  | _, _ => 0
  end.

(** [a] is before [b] in a list. *)
Definition before (l : list nat) (a b : nat) : Prop := ∃ l1 l2, l = l1 ++ b :: l2 ∧ a ∈ l1.

(** The part of the invariant that holds for all programs. *)
Record ginv (x : flat) : Prop := {
  g_len : length (fl_progs x) = length (fl_tasks x);
  g_perm : fl_started x ++ fl_q x ≡ₚ seq 0 (length (fl_tasks x));
  g_nodup : NoDup (f_task <$> fl_f x);
  g_started : ∀ v, Some v ∈ (f_task <$> fl_f x) → v ∈ fl_started x;
  g_done : ∀ v y, fl_tasks x !! v = Some y → t_done y = false →
    v ∈ fl_q x ∨ ∃ p, Frame (Some v) (FRun p) ∈ fl_f x;
  g_undone : ∀ v y, fl_tasks x !! v = Some y → t_done y = true →
    v ∈ fl_started x ∧ ∀ p, Frame (Some v) (FRun p) ∉ fl_f x }.

(** The part for fork-join programs; [ow] is the submitter of each task. *)
Record finv (ow : list (option nat)) (x : flat) : Prop := {
  i_g : ginv x;
  i_ow : length ow = length (fl_tasks x);
  i_run : ∀ o p, Frame o (FRun p) ∈ fl_f x → ∃ own, fork_join own p ∧
    ∀ u, u ∈ own → ow !! u = Some o ∧ parent_of (fl_tasks x) u = None;
  i_progs : Forall (fork_join []) (fl_progs x);
  i_parent : ∀ v p, parent_of (fl_tasks x) v = Some p →
    p < length (fl_tasks x) ∧ ow !! v = ow !! p ∧ parent_of (fl_tasks x) p = None;
  i_order : ∀ v o, ow !! v = Some (Some o) → o ∈ fl_started x ∧ (v ∈ fl_started x → before (fl_started x) o v);
  i_pc : ∀ v t, Frame (Some v) (FSub t) ∈ fl_f x ∨ Frame (Some v) (FCheck t) ∈ fl_f x →
    t = v ∨ parent_of (fl_tasks x) v = Some t;
  i_main : ∀ pc, Frame None pc ∈ fl_f x → ∃ p, pc = FRun p;
  i_root : ∀ t y, fl_tasks x !! t = Some y → t_parent y = None →
    t_ctr y = (N.of_nat (cnt (wq (fl_tasks x) t) (fl_q x) + cnt (wf (fl_tasks x) t) (fl_f x)) mod ctr_mod)%N;
  i_child : ∀ t y p, fl_tasks x !! t = Some y → t_parent y = Some p →
    t_ctr y = N.of_nat (cnt (bq t) (fl_q x) + cnt (bf t) (fl_f x)) }.

(** * Preliminaries *)

Lemma inc_mod n : inc16 (N.of_nat n mod ctr_mod) = (N.of_nat (S n) mod ctr_mod)%N.
Proof.
  unfold inc16. replace (N.of_nat (S n)) with (N.of_nat n + 1)%N by lia.
  by rewrite N.add_mod_idemp_l by done.
Qed.
Lemma dec_mod n : dec16 (N.of_nat (S n) mod ctr_mod) = (N.of_nat n mod ctr_mod)%N.
Proof.
  unfold dec16. rewrite N.add_mod_idemp_l by done.
  replace (N.of_nat (S n) + (ctr_mod - 1))%N with (N.of_nat n + 1 * ctr_mod)%N by (unfold ctr_mod; lia).
  by rewrite N.mod_add by done.
Qed.

Lemma cnt_ext {A} (f g : A → nat) l : (∀ x, x ∈ l → f x = g x) → cnt f l = cnt g l.
Proof.
  induction l as [|x l IH]; intros H; [done|]. cbn. rewrite (H x) by left.
  rewrite IH; [done|]. intros y Hy. apply H. by right.
Qed.
Lemma cnt_zero {A} (f : A → nat) l : cnt f l = 0 → ∀ x, x ∈ l → f x = 0.
Proof. induction l as [|y l IH]; cbn; intros H x Hx; [by apply elem_of_nil in Hx|]. apply elem_of_cons in Hx as [->|Hx]; [lia|]. apply IH; [lia|done]. Qed.
Lemma cnt_pos {A} (f : A → nat) l : 0 < cnt f l → ∃ x, x ∈ l ∧ 0 < f x.
Proof.
  induction l as [|y l IH]; cbn; [lia|]. intros H. destruct (decide (0 < f y)) as [Hy|Hy].
  - exists y. split; [left|done].
  - destruct IH as (x & Hx & Hp); [lia|]. exists x. split; [by right|done].
Qed.
Lemma cnt_elem {A} (f : A → nat) l x : x ∈ l → f x ≤ cnt f l.
Proof. induction 1; cbn; lia. Qed.

Lemma before_app l a b l' : before l a b → before (l ++ l') a b.
Proof. intros (l1 & l2 & -> & Ha). exists l1, (l2 ++ l'). by rewrite <-app_assoc. Qed.
Lemma before_snoc l a b : a ∈ l → before (l ++ [b]) a b.
Proof. intros Ha. by exists l, []. Qed.

Lemma parent_of_alter f i ts v : (∀ x, t_parent (f x) = t_parent x) → parent_of (alter f i ts) v = parent_of ts v.
Proof.
  intros Hf. unfold parent_of. destruct (decide (v = i)) as [->|Hv].
  - rewrite list_lookup_alter. destruct (ts !! i); cbn; [apply Hf|done].
  - by rewrite list_lookup_alter_ne.
Qed.
Lemma parent_of_count p ts v : parent_of (count_in p ts) v = parent_of ts v.
Proof. destruct p; [by apply parent_of_alter|done]. Qed.
Lemma count_in_length p ts : length (count_in p ts) = length ts.
Proof. destruct p; cbn; [apply alter_length|done]. Qed.
Lemma parent_of_old p ts x v : v < length ts → parent_of (count_in p ts ++ [x]) v = parent_of ts v.
Proof.
  intros Hv. rewrite <-(parent_of_count p ts v). unfold parent_of.
  by rewrite lookup_app_l by (by rewrite count_in_length).
Qed.
Lemma parent_of_new p ts x : parent_of (count_in p ts ++ [x]) (length ts) = t_parent x.
Proof.
  unfold parent_of. rewrite lookup_app_r by (by rewrite count_in_length).
  by rewrite count_in_length, Nat.sub_diag.
Qed.
Lemma parent_of_lt ts v p : parent_of ts v = Some p → v < length ts.
Proof. unfold parent_of. destruct (ts !! v) as [x|] eqn:E; cbn; [|done]. intros _. by eapply lookup_lt_Some. Qed.

(** Queued and running tasks exist and are pairwise different. *)
Lemma ginv_q_lt x v : ginv x → v ∈ fl_q x → v < length (fl_tasks x).
Proof.
  intros G Hv. assert (v ∈ seq 0 (length (fl_tasks x))) as H%elem_of_seq; [|lia].
  rewrite <-(g_perm _ G). apply elem_of_app. by right.
Qed.
Lemma ginv_s_lt x v : ginv x → v ∈ fl_started x → v < length (fl_tasks x).
Proof.
  intros G Hv. assert (v ∈ seq 0 (length (fl_tasks x))) as H%elem_of_seq; [|lia].
  rewrite <-(g_perm _ G). apply elem_of_app. by left.
Qed.
Lemma ginv_nd x : ginv x → NoDup (fl_started x ++ fl_q x).
Proof. intros G. rewrite (g_perm _ G). apply NoDup_seq. Qed.
Lemma ginv_disj x v : ginv x → v ∈ fl_started x → v ∉ fl_q x.
Proof. intros G. pose proof (ginv_nd _ G) as (_ & H & _)%NoDup_app. apply H. Qed.
Lemma ginv_f_lt x v pc : ginv x → Frame (Some v) pc ∈ fl_f x → v < length (fl_tasks x) ∧ v ∈ fl_started x ∧ v ∉ fl_q x.
Proof.
  intros G Hv. assert (v ∈ fl_started x).
  { apply (g_started _ G). apply elem_of_list_fmap. by exists (Frame (Some v) pc). }
  split; [by apply ginv_s_lt|]. split; [done|by apply ginv_disj].
Qed.

(** * Preservation, all programs *)

(** Replacing the position in one call. *)
Lemma ginv_goto ts ts' ps st q f o pc pc' f0 f' : ginv (Flat ts ps st q f) →
  f ≡ₚ Frame o pc :: f0 → f' ≡ₚ Frame o pc' :: f0 → length ts' = length ts →
  (∀ v y, ts' !! v = Some y → t_done y = false → v ∈ q ∨ ∃ p, Frame (Some v) (FRun p) ∈ f') →
  (∀ v y, ts' !! v = Some y → t_done y = true → v ∈ st ∧ ∀ p, Frame (Some v) (FRun p) ∉ f') →
  ginv (Flat ts' ps st q f').
Proof.
  intros [G1 G2 G3 G4 G5 G6] Hf Hf' Hlen Hd Hu. cbn in *. rewrite Hf in G3. cbn in G3.
  assert (∀ v, Some v ∈ (f_task <$> Frame o pc :: f0) → v ∈ st) as G4' by (intros v; rewrite <-Hf; apply G4).
  constructor; cbn.
  - congruence.
  - by rewrite Hlen.
  - by rewrite Hf'.
  - intros v. rewrite Hf'. apply (G4' v).
  - exact Hd.
  - exact Hu.
Qed.

Lemma not_two_frames (f f0 : list frame) o pc pc' : NoDup (f_task <$> f) → f ≡ₚ Frame o pc :: f0 →
  Frame o pc' ∈ f0 → False.
Proof.
  intros Hnd Hf Hin. rewrite Hf in Hnd. cbn in Hnd. apply NoDup_cons in Hnd as [Hn _]. apply Hn.
  apply elem_of_list_fmap. by exists (Frame o pc').
Qed.

(** A step that keeps the done flags and whether the call runs the function. *)
Lemma ginv_goto_run ts ts' ps st q f o p p' f0 f' : ginv (Flat ts ps st q f) →
  f ≡ₚ Frame o (FRun p) :: f0 → f' ≡ₚ Frame o (FRun p') :: f0 → t_done <$> ts' = t_done <$> ts →
  ginv (Flat ts' ps st q f').
Proof.
  intros G Hf Hf' Hts. pose proof G as [G1 G2 G3 G4 G5 G6]. cbn in *.
  assert (∀ v y, ts' !! v = Some y → ∃ z, ts !! v = Some z ∧ t_done z = t_done y) as Hlk.
  { intros v y Hy. assert ((t_done <$> ts') !! v = Some (t_done y)) as H by (by rewrite list_lookup_fmap, Hy).
    rewrite Hts, list_lookup_fmap in H. apply fmap_Some in H as (z & Hz & ->). by exists z. }
  eapply ginv_goto; [exact G|exact Hf|exact Hf'| | |].
  - rewrite <-(fmap_length t_done ts'), Hts. apply fmap_length.
  - intros v y Hy Hd. destruct (Hlk v y Hy) as (z & Hz & Hzd).
    destruct (G5 v z Hz) as [Hq|[p1 Hp1]]; [congruence|by left|]. right. rewrite Hf in Hp1.
    apply elem_of_cons in Hp1 as [E|Hp1].
    + injection E as <- _. exists p'. rewrite Hf'. left.
    + exists p1. rewrite Hf'. by right.
  - intros v y Hy Hd. destruct (Hlk v y Hy) as (z & Hz & Hzd).
    destruct (G6 v z Hz) as [Hs Hn]; [congruence|]. split; [done|]. intros p1 Hp1. rewrite Hf' in Hp1.
    apply elem_of_cons in Hp1 as [E|Hp1].
    + injection E as <- _. apply (Hn p). rewrite Hf. left.
    + apply (Hn p1). rewrite Hf. by right.
Qed.
Lemma ginv_goto_fin ts ts' ps st q f o pc pc' f0 f' : ginv (Flat ts ps st q f) →
  f ≡ₚ Frame o pc :: f0 → f' ≡ₚ Frame o pc' :: f0 → t_done <$> ts' = t_done <$> ts →
  (∀ p, pc ≠ FRun p) → (∀ p, pc' ≠ FRun p) →
  ginv (Flat ts' ps st q f').
Proof.
  intros G Hf Hf' Hts Hpc Hpc'. pose proof G as [G1 G2 G3 G4 G5 G6]. cbn in *.
  assert (∀ v y, ts' !! v = Some y → ∃ z, ts !! v = Some z ∧ t_done z = t_done y) as Hlk.
  { intros v y Hy. assert ((t_done <$> ts') !! v = Some (t_done y)) as H by (by rewrite list_lookup_fmap, Hy).
    rewrite Hts, list_lookup_fmap in H. apply fmap_Some in H as (z & Hz & ->). by exists z. }
  eapply ginv_goto; [exact G|exact Hf|exact Hf'| | |].
  - rewrite <-(fmap_length t_done ts'), Hts. apply fmap_length.
  - intros v y Hy Hd. destruct (Hlk v y Hy) as (z & Hz & Hzd).
    destruct (G5 v z Hz) as [Hq|[p1 Hp1]]; [congruence|by left|]. right. rewrite Hf in Hp1.
    apply elem_of_cons in Hp1 as [E|Hp1].
    + injection E as _ E. by destruct (Hpc p1).
    + exists p1. rewrite Hf'. by right.
  - intros v y Hy Hd. destruct (Hlk v y Hy) as (z & Hz & Hzd).
    destruct (G6 v z Hz) as [Hs Hn]; [congruence|]. split; [done|]. intros p1 Hp1. rewrite Hf' in Hp1.
    apply elem_of_cons in Hp1 as [E|Hp1].
    + injection E as _ E. by destruct (Hpc' p1).
    + apply (Hn p1). rewrite Hf. by right.
Qed.
(** A call ends. *)
Lemma ginv_pop ts ps st q f fr f' : ginv (Flat ts ps st q f) → f ≡ₚ fr :: f' →
  (∀ v p, fr ≠ Frame (Some v) (FRun p)) → ginv (Flat ts ps st q f').
Proof.
  intros [G1 G2 G3 G4 G5 G6] Hf Hfr. cbn in *. rewrite Hf in G3. cbn in G3. apply NoDup_cons in G3 as [_ G3].
  constructor; cbn; [done|done|done| | |].
  - intros v Hv. apply G4. rewrite Hf. by right.
  - intros v y Hy Hd. destruct (G5 v y Hy Hd) as [Hq|[p Hp]]; [by left|]. right. exists p.
    rewrite Hf in Hp. apply elem_of_cons in Hp as [E|Hp]; [|done]. by destruct (Hfr v p).
  - intros v y Hy Hd. destruct (G6 v y Hy Hd) as [Hs Hn]. split; [done|]. intros p Hp. apply (Hn p).
    rewrite Hf. by right.
Qed.

Lemma done_alter f i (ts : list task) : (∀ x, t_done (f x) = t_done x) → t_done <$> alter f i ts = t_done <$> ts.
Proof.
  intros Hf. apply list_eq. intros j. rewrite !list_lookup_fmap. destruct (decide (j = i)) as [->|Hj].
  - rewrite list_lookup_alter. destruct (ts !! i); cbn; [by rewrite Hf|done].
  - by rewrite list_lookup_alter_ne.
Qed.
Lemma done_count p ts : t_done <$> count_in p ts = t_done <$> ts.
Proof. destruct p; [by apply done_alter|done]. Qed.

Lemma ginv_step l x y : fstep l x y → ginv x → ginv y.
Proof.
  intros Hs G. destruct Hs as
    [ts ps st q f o c p k f0 q' f' Hf Hq' Hf'|ts ps st q f v c q' f' Hq Hc Hf'|ts ps st q f v f0 f' Hf Hf'
    |ts ps st q f f' Hf|ts ps st q f o t k f0 f' x Hf Hf' Hx Hx0|ts ps st q f o k f0 f' Hf Hf'|ts ps st q f o a k f0 f' Hf Hf'
    |ts ps st q f o t f0 f' Hf Hf'|ts ps st q f o t f0 f' x p Hf Hf' Hx Hx0 Hp|ts ps st q f o t f' x Hf Hx _].
  - assert (ginv (Flat (count_in p ts) ps st q f')) as G'.
    { eapply ginv_goto_run; [exact G|exact Hf|exact Hf'|apply done_count]. }
    destruct G' as [G1 G2 G3 G4 G5 G6]. cbn in *. rewrite count_in_length in G1, G2.
    constructor; cbn.
    + rewrite !app_length, count_in_length. cbn. lia.
    + rewrite app_length, count_in_length, Hq'. cbn. rewrite seq_app. cbn.
      rewrite <-G2. solve_Permutation.
    + done.
    + done.
    + intros v y Hy Hd. rewrite Hq'. apply lookup_app_Some in Hy as [Hy|[Hle Hy]].
      * destruct (G5 v y Hy Hd) as [?|?]; [left; by right|by right].
      * apply list_lookup_singleton_Some in Hy as [Hv _]. left. rewrite count_in_length in *.
        assert (v = length ts) as -> by lia. left.
    + intros v y Hy Hd. apply lookup_app_Some in Hy as [Hy|[Hle Hy]].
      * by apply (G6 v y).
      * apply list_lookup_singleton_Some in Hy as [_ <-]. done.
  - pose proof G as [G1 G2 G3 G4 G5 G6]. cbn in *.
    assert (v ∈ q) as Hvq by (rewrite Hq; left).
    assert (v ∉ st) as Hvs by (intros H; by apply (ginv_disj _ v G) in H).
    constructor; cbn; [done| | | | |].
    + rewrite <-G2, Hq. rewrite <-app_assoc. done.
    + rewrite Hf'. cbn. apply NoDup_cons. split; [|done]. intros Hin. by apply Hvs, G4.
    + intros u. rewrite Hf'. cbn. intros [E|Hu]%elem_of_cons.
      * injection E as ->. apply elem_of_app. right. left.
      * apply elem_of_app. left. by apply G4.
    + intros u y Hy Hd. destruct (G5 u y Hy Hd) as [Hu|[p Hp]].
      * rewrite Hq in Hu. apply elem_of_cons in Hu as [->|Hu]; [|by left]. right. exists c. rewrite Hf'. left.
      * right. exists p. rewrite Hf'. by right.
    + intros u y Hy Hd. destruct (G6 u y Hy Hd) as [Hu Hn]. split; [apply elem_of_app; by left|].
      intros p. rewrite Hf'. intros [E|Hp]%elem_of_cons; [|by apply (Hn p)].
      injection E as -> ->. done.
  - pose proof G as [G1 G2 G3 G4 G5 G6]. cbn in *.
    assert (v ∈ st) as Hvs. { apply G4. rewrite Hf. left. }
    eapply ginv_goto; [exact G|exact Hf|exact Hf'|apply alter_length| |].
    + intros u y. destruct (decide (u = v)) as [->|Hu].
      * rewrite list_lookup_alter. by intros (z & Hz & ->)%fmap_Some.
      * rewrite list_lookup_alter_ne by done. intros Hy Hd.
        destruct (G5 u y Hy Hd) as [?|[p Hp]]; [by left|]. right. exists p. rewrite Hf'. right.
        rewrite Hf in Hp. apply elem_of_cons in Hp as [E|?]; [|done]. by injection E as -> _.
    + intros u y Hy Hd. destruct (decide (u = v)) as [->|Hu].
      * split; [done|]. intros p. rewrite Hf'. intros [E|Hp]%elem_of_cons; [done|].
        by eapply (not_two_frames f f0).
      * rewrite list_lookup_alter_ne in Hy by done. destruct (G6 u y Hy Hd) as [? Hn]. split; [done|].
        intros p. rewrite Hf'. intros [E|Hp]%elem_of_cons; [done|]. apply (Hn p). rewrite Hf. by right.
  - by eapply ginv_pop.
  - by eapply ginv_goto_run.
  - by eapply ginv_goto_run.
  - by eapply ginv_goto_run.
  - eapply ginv_goto_fin; [exact G|exact Hf|exact Hf'|by apply done_alter|done|done].
  - eapply ginv_goto_fin; [exact G|exact Hf|exact Hf'|done|done|done].
  - by eapply ginv_pop.
Qed.

(** * Preservation, fork-join programs *)

Lemma cnt_perm {A} (f : A → nat) l l' : l ≡ₚ l' → cnt f l = cnt f l'.
Proof. induction 1; cbn; lia. Qed.
Lemma wq_ext ts ts' t v : parent_of ts v = parent_of ts' v → wq ts t v = wq ts' t v.
Proof. unfold wq. by intros ->. Qed.
Lemma wf_ext ts ts' t fr : (∀ v, f_task fr = Some v → parent_of ts v = parent_of ts' v) → wf ts t fr = wf ts' t fr.
Proof.
  unfold wf. destruct (f_task fr) as [v|]; [|done]. intros H. specialize (H v eq_refl).
  destruct (f_pc fr); [by apply wq_ext|by rewrite H|by rewrite H].
Qed.
Lemma wq_all ts ts' t : (∀ v, parent_of ts v = parent_of ts' v) → ∀ q, cnt (wq ts t) q = cnt (wq ts' t) q.
Proof. intros H q. apply cnt_ext. intros v _. by apply wq_ext. Qed.
Lemma wf_all ts ts' t : (∀ v, parent_of ts v = parent_of ts' v) → ∀ f, cnt (wf ts t) f = cnt (wf ts' t) f.
Proof. intros H f. apply cnt_ext. intros v _. by apply wf_ext. Qed.

(** A step of one call that changes no task other than done flags and adds or removes no task. *)
Lemma finv_goto ow ts ts' ps st q f o pc pc' f0 f' : finv ow (Flat ts ps st q f) → ginv (Flat ts' ps st q f') →
  f ≡ₚ Frame o pc :: f0 → f' ≡ₚ Frame o pc' :: f0 →
  t_parent <$> ts' = t_parent <$> ts → t_ctr <$> ts' = t_ctr <$> ts →
  (∀ p, pc' = FRun p → ∃ own, fork_join own p ∧ ∀ u, u ∈ own → ow !! u = Some o ∧ parent_of ts u = None) →
  (∀ v t, o = Some v → pc' = FSub t ∨ pc' = FCheck t → t = v ∨ parent_of ts v = Some t) →
  (o = None → ∃ p, pc' = FRun p) →
  (∀ t, parent_of ts t = None → wf ts t (Frame o pc') = wf ts t (Frame o pc)) →
  (∀ t p, parent_of ts t = Some p → bf t (Frame o pc') = bf t (Frame o pc)) →
  finv ow (Flat ts' ps st q f').
Proof.
  intros [G I1 I2 I3 I4 I5 I6 I7 I8 I9] G' Hf Hf' Hpar Hctr Hrun Hpc Hmain Hw Hb. cbn in *.
  assert (∀ v, parent_of ts' v = parent_of ts v) as Hpo.
  { intros v. unfold parent_of. assert ((t_parent <$> ts') !! v = (t_parent <$> ts) !! v) as H by (by rewrite Hpar).
    rewrite !list_lookup_fmap in H. destruct (ts' !! v), (ts !! v); cbn in *; congruence. }
  assert (length ts' = length ts) as Hlen by (rewrite <-(fmap_length t_parent ts'), Hpar; apply fmap_length).
  assert (∀ t y, ts' !! t = Some y → ∃ z, ts !! t = Some z ∧ t_parent z = t_parent y ∧ t_ctr z = t_ctr y) as Hlk.
  { intros t y Hy.
    assert ((t_parent <$> ts) !! t = Some (t_parent y)) as H1 by (by rewrite <-Hpar, list_lookup_fmap, Hy).
    assert ((t_ctr <$> ts) !! t = Some (t_ctr y)) as H2 by (by rewrite <-Hctr, list_lookup_fmap, Hy).
    rewrite list_lookup_fmap in H1. rewrite list_lookup_fmap in H2. destruct (ts !! t) as [z|]; [|done]. cbn in *. exists z. naive_solver. }
  assert (∀ fr, fr ∈ f' → fr = Frame o pc' ∨ fr ∈ f) as Hin.
  { intros fr. rewrite Hf', Hf. intros [->|H]%elem_of_cons; [by left|right; by right]. }
  constructor; cbn.
  - done.
  - congruence.
  - intros o1 p1 H1. setoid_rewrite Hpo. destruct (Hin _ H1) as [E|H2]; [injection E as -> <-; by apply Hrun|by apply I2].
  - done.
  - intros v p. rewrite !Hpo, Hlen. apply I4.
  - done.
  - intros v t Hvt. rewrite Hpo. destruct Hvt as [H1|H1]; (destruct (Hin _ H1) as [E|H2]; [injection E as <- <-|]).
    + apply (Hpc v t eq_refl). by left.
    + apply I6. by left.
    + apply (Hpc v t eq_refl). by right.
    + apply I6. by right.
  - intros pc1 H1. destruct (Hin _ H1) as [E|H2]; [injection E as <- ->; by apply Hmain|by apply I7].
  - intros t y Hy Hyp. destruct (Hlk t y Hy) as (z & Hz & Hzp & Hzc). rewrite <-Hzc, (I8 t z Hz) by congruence.
    rewrite (wq_all ts' ts t Hpo), (wf_all ts' ts t Hpo), (cnt_perm _ _ _ Hf), (cnt_perm _ _ _ Hf'). cbn.
    rewrite Hw; [done|]. unfold parent_of. rewrite Hz. cbn. congruence.
  - intros t y p Hy Hyp. destruct (Hlk t y Hy) as (z & Hz & Hzp & Hzc). rewrite <-Hzc, (I9 t z p Hz) by congruence.
    rewrite (cnt_perm _ _ _ Hf), (cnt_perm _ _ _ Hf'). cbn. rewrite (Hb t p); [done|].
    unfold parent_of. rewrite Hz. cbn. congruence.
Qed.

(** A call ends that has nothing left to subtract. *)
Lemma finv_pop ow ts ps st q f fr f' : finv ow (Flat ts ps st q f) → ginv (Flat ts ps st q f') →
  f ≡ₚ fr :: f' → (∀ t, parent_of ts t = None → wf ts t fr = 0) → (∀ t p, parent_of ts t = Some p → bf t fr = 0) →
  finv ow (Flat ts ps st q f').
Proof.
  intros [G I1 I2 I3 I4 I5 I6 I7 I8 I9] G' Hf Hw Hb. cbn in *.
  assert (∀ x, x ∈ f' → x ∈ f) as Hin by (intros x Hx; rewrite Hf; by right).
  constructor; cbn; [done|done| |done|done|done| | | |].
  - intros o p Hp. by apply I2, Hin.
  - intros v t [H|H]; apply I6; [left|right]; by apply Hin.
  - intros pc Hp. by apply I7, Hin.
  - intros t y Hy Hyp. rewrite (I8 t y Hy Hyp), (cnt_perm _ _ _ Hf). cbn. rewrite Hw; [done|].
    unfold parent_of. by rewrite Hy.
  - intros t y p Hy Hyp. rewrite (I9 t y p Hy Hyp), (cnt_perm _ _ _ Hf). cbn. rewrite (Hb t p); [done|].
    unfold parent_of. by rewrite Hy.
Qed.

Lemma parent_of_Some ts v y p : ts !! v = Some y → t_parent y = p → parent_of ts v = p.
Proof. intros Hy <-. unfold parent_of. by rewrite Hy. Qed.

(** The counter of a child task whose execution is past its own subtraction. *)
Lemma child_alone ow ts ps st q f v pc f0 : finv ow (Flat ts ps st q f) → f ≡ₚ Frame (Some v) pc :: f0 →
  cnt (bq v) q = 0 ∧ cnt (bf v) f0 = 0.
Proof.
  intros I Hf. pose proof (i_g _ _ I) as G.
  destruct (ginv_f_lt _ v pc G) as (_ & _ & Hq); [cbn; rewrite Hf; left|]. cbn in Hq. split.
  - destruct (decide (cnt (bq v) q = 0)) as [|Hne]; [done|]. destruct (cnt_pos (bq v) q) as (u & Hu & Hp); [lia|].
    unfold bq in Hp. case_decide as E; [subst; done|lia].
  - destruct (decide (cnt (bf v) f0 = 0)) as [|Hne]; [done|]. destruct (cnt_pos (bf v) f0) as ([o1 pc1] & Hu & Hp); [lia|].
    exfalso. assert (o1 = Some v) as ->.
    { unfold bf, bq in Hp. cbn in Hp. destruct o1 as [u|]; [|lia]. destruct pc1; repeat case_decide; try lia; naive_solver. }
    eapply not_two_frames; [exact (g_nodup _ G)|exact Hf|exact Hu].
Qed.

Lemma wf_sub ts t v x : wf ts t (Frame (Some v) (FSub x)) = if decide (x = t ∨ x = v ∧ parent_of ts v = Some t) then 1 else 0.
Proof. done. Qed.

Lemma finv_step l ow x y : fstep l x y → finv ow x → finv (ow ++ option_list l) y.
Proof.
  intros Hs I. pose proof (ginv_step l x y Hs (i_g _ _ I)) as G'. destruct Hs as
    [ts ps st q f o c p k f0 q' f' Hf Hq' Hf'|ts ps st q f v c q' f' Hq Hc Hf'|ts ps st q f v f0 f' Hf Hf'
    |ts ps st q f f' Hf|ts ps st q f o t k f0 f' x Hf Hf' Hx Hx0|ts ps st q f o k f0 f' Hf Hf'|ts ps st q f o a k f0 f' Hf Hf'
    |ts ps st q f o t f0 f' Hf Hf'|ts ps st q f o t f0 f' x p Hf Hf' Hx Hx0 Hp|ts ps st q f o t f' x Hf Hx Hend].
  - cbn [option_list]. pose proof I as [G I1 I2 I3 I4 I5 I6 I7 I8 I9]. cbn in *.
    destruct (I2 o (PSubmit c p k)) as (own & Hfj & Hown); [rewrite Hf; left|].
    assert (∀ u, parent_of (count_in p ts ++ [Task p 1 false]) u =
                 if decide (u = length ts) then p else parent_of ts u) as Hpo.
    { intros u. case_decide as E; [subst u; by rewrite parent_of_new|].
      destruct (decide (u < length ts)); [by apply parent_of_old|]. unfold parent_of.
      rewrite !lookup_ge_None_2; [done|lia|]. rewrite app_length, count_in_length. cbn. lia. }
    assert (∀ r, p = Some r → r < length ts ∧ parent_of ts r = None ∧ ow !! r = Some o) as Hp.
    { intros r ->. destruct Hfj as (Hr & _). destruct (Hown r Hr) as [H1 H2]. split; [|done].
      rewrite <-I1. by eapply lookup_lt_Some. }
    assert (fork_join [] c) as Hc by (destruct p; naive_solver).
    assert (∀ u, u ∈ q → u < length ts) as Hqlt by (intros u; apply (ginv_q_lt _ u G)).
    assert (∀ u pc, Frame (Some u) pc ∈ f → u < length ts) as Hflt.
    { intros u pc H. by apply (ginv_f_lt _ u pc G) in H as [? _]. }
    assert (length ts = length ow) as Hlo by done.
    assert (∀ t, cnt (wq (count_in p ts ++ [Task p 1 false]) t) q = cnt (wq ts t) q) as Hwq.
    { intros t. apply cnt_ext. intros u Hu. apply wq_ext. rewrite Hpo, decide_False; [done|]. specialize (Hqlt u Hu). lia. }
    assert (∀ t, cnt (wf (count_in p ts ++ [Task p 1 false]) t) f0 = cnt (wf ts t) f0) as Hwf.
    { intros t. apply cnt_ext. intros fr Hfr. apply wf_ext. intros u Hu. rewrite Hpo, decide_False; [done|].
      destruct fr as [? pc]. cbn in Hu. subst. assert (u < length ts); [|lia]. apply (Hflt u pc). rewrite Hf. by right. }
    assert (∀ fr, fr ∈ f' → fr = Frame o (FRun (k (length ts))) ∨ fr ∈ f) as Hin.
    { intros fr. rewrite Hf', Hf. intros [->|H]%elem_of_cons; [by left|right; by right]. }
    assert (∀ t pr pr', wf ts t (Frame o (FRun pr)) = wf ts t (Frame o (FRun pr'))) as Hsame by done.
    assert (∀ t, t ≤ length ts → wf (count_in p ts ++ [Task p 1 false]) t (Frame o (FRun (k (length ts)))) = wf ts t (Frame o (FRun (PSubmit c p k)))) as Hwo.
    { intros t Ht. rewrite (Hsame t (PSubmit c p k) (k (length ts))). apply wf_ext. cbn. intros u ->. rewrite Hpo, decide_False; [done|].
      assert (u < length ts); [|lia]. apply (Hflt u (FRun (PSubmit c p k))). rewrite Hf. left. }
    constructor; cbn.
    + done.
    + rewrite !app_length, count_in_length. cbn. lia.
    + intros o1 p1 H1. destruct (Hin _ H1) as [E|H2].
      * injection E as -> ->. destruct p as [r|].
        -- destruct Hfj as (_ & _ & Hk). exists own. split; [apply Hk|]. intros u Hu. destruct (Hown u Hu) as [Ho Hn].
           rewrite Hpo, decide_False by (apply lookup_lt_Some in Ho; lia). split; [by apply lookup_app_l_Some|done].
        -- destruct Hfj as [_ Hk]. exists (length ts :: own). split; [apply Hk|]. intros u [->|Hu]%elem_of_cons.
           ++ rewrite Hpo, decide_True by done. split; [|done]. rewrite Hlo, lookup_app_r, Nat.sub_diag by done. done.
           ++ destruct (Hown u Hu) as [Ho Hn].
              rewrite Hpo, decide_False by (apply lookup_lt_Some in Ho; lia). split; [by apply lookup_app_l_Some|done].
      * destruct (I2 _ _ H2) as (own1 & Hfj1 & Hown1). exists own1. split; [done|]. intros u Hu. destruct (Hown1 u Hu) as [Ho Hn].
        rewrite Hpo, decide_False by (apply lookup_lt_Some in Ho; lia). split; [by apply lookup_app_l_Some|done].
    + apply Forall_app. split; [done|]. by constructor.
    + intros v r. rewrite !Hpo. rewrite app_length, count_in_length. cbn. case_decide as E.
      * subst v. intros Hr. destruct (Hp r Hr) as (H1 & H2 & H3). rewrite decide_False by lia.
        split; [lia|]. split; [|done]. rewrite lookup_app_r, Hlo, Nat.sub_diag by lia.
        by rewrite (lookup_app_l_Some _ _ _ _ H3).
      * intros Hr. destruct (I4 v r Hr) as (H1 & H2 & H3). rewrite decide_False by lia.
        split; [lia|]. split; [|done]. apply parent_of_lt in Hr. by rewrite !lookup_app_l by lia.
    + intros v o1 [Hv|[Hle Hv]]%lookup_app_Some; [by apply I5|].
      apply list_lookup_singleton_Some in Hv as [Hv ->]. assert (v = length ts) as -> by lia. split.
      * apply (g_started _ G). cbn. rewrite Hf. left.
      * intros Hs. exfalso. apply (ginv_s_lt _ _ G) in Hs. cbn in Hs. lia.
    + intros v t Hvt. assert (Frame (Some v) (FSub t) ∈ f ∨ Frame (Some v) (FCheck t) ∈ f) as H.
      { destruct Hvt as [H|H]; (destruct (Hin _ H) as [E|H2]; [done|]); naive_solver. }
      rewrite Hpo, decide_False; [by apply I6|]. destruct H as [H|H]; apply Hflt in H; lia.
    + intros pc H. destruct (Hin _ H) as [E|H2]; [injection E as _ ->; eauto|by apply I7].
    + intros t y Hy Hyp. rewrite (cnt_perm _ _ _ Hq'), (cnt_perm _ _ _ Hf'). cbn. rewrite Hwq, Hwf.
      apply lookup_app_Some in Hy as [Hy|[Hle Hy]].
      * assert (t < length ts) as Ht by (apply lookup_lt_Some in Hy; by rewrite count_in_length in Hy).
        rewrite Hwo by lia. unfold wq at 1. rewrite parent_of_new. cbn [t_parent].
        destruct (decide (p = Some t)) as [->|Hpt].
        -- rewrite decide_True by (by right). cbn in Hy. rewrite list_lookup_alter in Hy.
           apply fmap_Some in Hy as (z & Hz & ->). cbn. rewrite (I8 t z Hz Hyp), inc_mod.
           rewrite (cnt_perm _ _ _ Hf). cbn. done.
        -- rewrite decide_False by (intros [?|?]; [lia|done]).
           assert (ts !! t = Some y) as Hz by (destruct p; [cbn in Hy; rewrite list_lookup_alter_ne in Hy by congruence|]; done).
           rewrite (I8 t y Hz Hyp), (cnt_perm _ _ _ Hf). cbn. done.
      * apply list_lookup_singleton_Some in Hy as [Hv <-]. cbn in Hyp. subst p. rewrite count_in_length in *.
        assert (t = length ts) as -> by lia. rewrite Hwo by lia. unfold wq at 1. rewrite decide_True by (by left).
        assert (cnt (wq ts (length ts)) q = 0) as ->.
        { destruct (decide (cnt (wq ts (length ts)) q = 0)) as [|Hne]; [done|]. destruct (cnt_pos (wq ts (length ts)) q) as (u & Hu & Hw); [lia|].
          unfold wq in Hw. case_decide as E; [|lia]. destruct E as [E|E]; [specialize (Hqlt u Hu); lia|].
          destruct (I4 _ _ E) as [? _]. lia. }
        assert (∀ fr, fr ∈ f → wf ts (length ts) fr = 0) as Hz.
        { intros [o1 pc1] Hfr. unfold wf, wq. cbn. destruct o1 as [u|]; [|done]. specialize (Hflt u pc1 Hfr).
          assert (parent_of ts u ≠ Some (length ts)) by (intros E; destruct (I4 _ _ E) as [? _]; lia).
          destruct pc1 as [?|x|x]; case_decide as E; try done; exfalso; [naive_solver lia| |naive_solver].
          destruct E as [->|[? ?]]; [|done]. destruct (I6 u (length ts)) as [?|?]; [by left|lia|done]. }
        rewrite Hz by (rewrite Hf; left).
        assert (cnt (wf ts (length ts)) f0 = 0) as ->; [|done].
        destruct (decide (cnt (wf ts (length ts)) f0 = 0)) as [|Hne]; [done|]. destruct (cnt_pos (wf ts (length ts)) f0) as (fr & Hfr & Hw); [lia|].
        rewrite Hz in Hw; [lia|]. rewrite Hf. by right.
    + intros t y r Hy Hyp. rewrite (cnt_perm _ _ _ Hq'), (cnt_perm _ _ _ Hf'). cbn.
      assert (∀ pr pr', bf t (Frame o (FRun pr)) = bf t (Frame o (FRun pr'))) as Hbsame by done.
      apply lookup_app_Some in Hy as [Hy|[Hle Hy]].
      * assert (t < length ts) as Ht by (apply lookup_lt_Some in Hy; by rewrite count_in_length in Hy).
        unfold bq at 1. rewrite decide_False by lia.
        assert (ts !! t = Some y) as Hz.
        { destruct p as [p|]; [|done]. cbn in Hy. destruct (decide (p = t)) as [->|?]; [|by rewrite list_lookup_alter_ne in Hy].
          exfalso. rewrite list_lookup_alter in Hy. apply fmap_Some in Hy as (z & Hz & ->). cbn in Hyp.
          destruct (Hp t eq_refl) as (_ & Hn & _). unfold parent_of in Hn. rewrite Hz in Hn. cbn in Hn. congruence. }
        rewrite (I9 t y r Hz Hyp), (cnt_perm _ _ _ Hf). cbn. done.
      * apply list_lookup_singleton_Some in Hy as [Hv <-]. rewrite count_in_length in *.
        assert (t = length ts) as -> by lia. cbn. unfold bq at 1. rewrite decide_True by done.
        assert (cnt (bq (length ts)) q = 0) as ->.
        { destruct (decide (cnt (bq (length ts)) q = 0)) as [|Hne]; [done|]. destruct (cnt_pos (bq (length ts)) q) as (u & Hu & Hw); [lia|].
          unfold bq in Hw. case_decide as E; [|lia]. specialize (Hqlt u Hu). lia. }
        assert (∀ fr, fr ∈ f → bf (length ts) fr = 0) as Hz.
        { intros [o1 pc1] Hfr. unfold bf, bq. cbn. destruct o1 as [u|]; [|done]. specialize (Hflt u pc1 Hfr).
          destruct pc1 as [?|x|x]; try case_decide; try done; lia. }
        rewrite (Hbsame _ (PSubmit c p k)), Hz by (rewrite Hf; left).
        assert (cnt (bf (length ts)) f0 = 0) as ->; [|done].
        destruct (decide (cnt (bf (length ts)) f0 = 0)) as [|Hne]; [done|]. destruct (cnt_pos (bf (length ts)) f0) as (fr & Hfr & Hw); [lia|].
        rewrite Hz in Hw; [lia|]. rewrite Hf. by right.
  - cbn [option_list]; rewrite app_nil_r. destruct I as [G I1 I2 I3 I4 I5 I6 I7 I8 I9]. cbn in *.
    assert (v ∈ q) as Hvq by (rewrite Hq; left).
    assert (v ∉ st) as Hvs by (intros H; by apply (ginv_disj _ v G) in H).
    constructor; cbn; [done|done| |done|done| | | | |].
    + intros o p. rewrite Hf'. intros [E|H]%elem_of_cons; [|by apply I2]. injection E as -> ->. exists [].
      split; [by eapply Forall_lookup_1|]. by intros u ?%elem_of_nil.
    + intros u o Hu. destruct (I5 u o Hu) as [Ho Hb]. split; [apply elem_of_app; by left|].
      intros [H|H]%elem_of_app; [by apply before_app, Hb|]. apply elem_of_list_singleton in H as ->. by apply before_snoc.
    + intros u t. rewrite Hf'. intros [[E|H]%elem_of_cons|[E|H]%elem_of_cons]; try done; apply I6; [by left|by right].
    + intros pc. rewrite Hf'. intros [E|H]%elem_of_cons; [done|by apply I7].
    + intros t y Hy Hyp. rewrite (I8 t y Hy Hyp), (cnt_perm _ _ _ Hf'), (cnt_perm _ _ _ Hq). cbn.
      change (wf ts t (Frame (Some v) (FRun c))) with (wq ts t v). do 2 f_equal. lia.
    + intros t y p Hy Hyp. rewrite (I9 t y p Hy Hyp), (cnt_perm _ _ _ Hf'), (cnt_perm _ _ _ Hq). cbn.
      change (bf t (Frame (Some v) (FRun c))) with (bq t v). f_equal. lia.
  - cbn [option_list]; rewrite app_nil_r. eapply (finv_goto ow ts _ ps st q f _ _ _ f0 f' I G' Hf Hf').
    + apply list_eq. intros j. rewrite !list_lookup_fmap. destruct (decide (j = v)) as [->|Hj].
      * rewrite list_lookup_alter. by destruct (ts !! v).
      * by rewrite list_lookup_alter_ne.
    + apply list_eq. intros j. rewrite !list_lookup_fmap. destruct (decide (j = v)) as [->|Hj].
      * rewrite list_lookup_alter. by destruct (ts !! v).
      * by rewrite list_lookup_alter_ne.
    + done.
    + intros u t [= ->] [[= ->]|[=]]. by left.
    + done.
    + intros t _. unfold wf, wq. cbn. repeat case_decide; naive_solver.
    + intros t p _. unfold bf, bq. cbn. repeat case_decide; naive_solver.
  - cbn [option_list]; rewrite app_nil_r. eapply finv_pop; [exact I|exact G'|exact Hf|done|done].
  - cbn [option_list]; rewrite app_nil_r. eapply (finv_goto ow ts _ ps st q f _ _ _ f0 f' I G' Hf Hf'); try done.
    2: by intros ? ? _ [?|?].
    2: by eauto.
    intros p [= <-]. destruct (i_run _ _ I o (PWait t k)) as (own & [_ Hfj] & Hown); [cbn; rewrite Hf; left|].
    by exists own.
  - cbn [option_list]; rewrite app_nil_r. eapply (finv_goto ow ts _ ps st q f _ _ _ f0 f' I G' Hf Hf'); try done.
    2: by intros ? ? _ [?|?].
    2: by eauto.
    intros p [= <-]. destruct (i_run _ _ I o (PStop k)) as (own & Hfj & Hown); [cbn; rewrite Hf; left|].
    by exists own.
  - cbn [option_list]; rewrite app_nil_r. eapply (finv_goto ow ts _ ps st q f _ _ _ f0 f' I G' Hf Hf'); try done.
    2: by intros ? ? _ [?|?].
    2: by eauto.
    intros p [= <-]. destruct (i_run _ _ I o (PAct a k)) as (own & Hfj & Hown); [cbn; rewrite Hf; left|].
    by exists own.
  - cbn [option_list]; rewrite app_nil_r. pose proof I as [G I1 I2 I3 I4 I5 I6 I7 I8 I9]. cbn in *.
    destruct o as [v|]; [|destruct (I7 (FSub t)) as [? [=]]; rewrite Hf; left].
    assert (Frame (Some v) (FSub t) ∈ f) as Hv by (rewrite Hf; left).
    assert (∀ u, parent_of (alter (upd_ctr dec16) t ts) u = parent_of ts u) as Hpo by (intros u; by apply parent_of_alter).
    assert (∀ fr, fr ∈ f' → fr = Frame (Some v) (FCheck t) ∨ fr ∈ f) as Hin.
    { intros fr. rewrite Hf', Hf. intros [->|H]%elem_of_cons; [by left|right; by right]. }
    pose proof (I6 v t (or_introl Hv)) as Hvt.
    assert (v < length ts) as Hvlt by (by apply (ginv_f_lt _ v _ G) in Hv as [? _]).
    constructor; cbn.
    + done.
    + by rewrite alter_length.
    + intros o1 p1 H1. setoid_rewrite Hpo. destruct (Hin _ H1) as [E|H2]; [done|by apply I2].
    + done.
    + intros u r. rewrite !Hpo, alter_length. apply I4.
    + done.
    + intros u r Hur. rewrite Hpo. destruct Hur as [H1|H1]; (destruct (Hin _ H1) as [E|H2]; [simplify_eq|]).
      * apply I6. by left.
      * done.
      * apply I6. by right.
    + intros pc1 H1. destruct (Hin _ H1) as [E|H2]; [done|by apply I7].
    + intros r y Hy Hyp. rewrite (wq_all _ ts r Hpo), (wf_all _ ts r Hpo), (cnt_perm _ _ _ Hf'). cbn.
      assert (∀ z, ts !! r = Some z → t_parent z = None → t_ctr z = (N.of_nat (cnt (wq ts r) q + (wf ts r (Frame (Some v) (FSub t)) + cnt (wf ts r) f0)) mod ctr_mod)%N) as Hold.
      { intros z Hz Hzp. rewrite (I8 r z Hz Hzp), (cnt_perm _ _ _ Hf). done. }
      destruct (decide (r = t)) as [->|Hr].
      * rewrite list_lookup_alter in Hy. apply fmap_Some in Hy as (z & Hz & ->). cbn in Hyp |- *.
        rewrite (Hold z Hz Hyp). rewrite wf_sub, decide_True by (by left). rewrite decide_False.
        -- replace (cnt (wq ts t) q + (1 + cnt (wf ts t) f0)) with (S (cnt (wq ts t) q + (0 + cnt (wf ts t) f0))) by lia.
           apply dec_mod.
        -- intros [-> E]. pose proof (parent_of_Some _ _ _ _ Hz Hyp). congruence.
      * rewrite list_lookup_alter_ne in Hy by done. rewrite (Hold y Hy Hyp), wf_sub.
        repeat case_decide; try done; exfalso; naive_solver.
    + intros c y r Hy Hyp. rewrite (cnt_perm _ _ _ Hf'). cbn.
      destruct (decide (c = t)) as [->|Hc].
      * rewrite list_lookup_alter in Hy. apply fmap_Some in Hy as (z & Hz & ->). cbn in Hyp |- *.
        assert (t = v) as ->.
        { destruct Hvt as [|Hvt]; [done|]. destruct (I4 _ _ Hvt) as (_ & _ & Hn). rewrite (parent_of_Some _ _ _ _ Hz Hyp) in Hn. done. }
        rewrite (I9 v z r Hz Hyp), (cnt_perm _ _ _ Hf). cbn.
        destruct (child_alone ow ts ps st q f v _ f0 I Hf) as [-> ->]. unfold bf. cbn. by rewrite decide_True.
      * rewrite list_lookup_alter_ne in Hy by done. rewrite (I9 c y r Hy Hyp), (cnt_perm _ _ _ Hf). cbn. do 2 f_equal. unfold bf at 1. cbn.
        rewrite decide_False; [done|]. naive_solver.
  - cbn [option_list]; rewrite app_nil_r. pose proof (i_pc _ _ I) as Hpc. cbn in Hpc.
    destruct o as [v|]; [|destruct (i_main _ _ I (FCheck t)) as [? [=]]; cbn; rewrite Hf; left].
    assert (Frame (Some v) (FCheck t) ∈ f) as Hin by (rewrite Hf; left).
    pose proof (parent_of_Some _ _ _ _ Hx Hp) as Hpt. destruct (i_parent _ _ I _ _ Hpt) as (Hlt & _ & Hpp). cbn in Hlt, Hpp.
    assert (t = v) as ->.
    { destruct (Hpc v t (or_intror Hin)) as [|Hv]; [done|]. destruct (i_parent _ _ I _ _ Hv) as (_ & _ & Hn). cbn in Hn. congruence. }
    eapply (finv_goto ow ts _ ps st q f _ _ _ f0 f' I G' Hf Hf'); try done.
    + intros u t [= <-] [[= <-]|[=]]. by right.
    + intros t Ht. unfold wf. cbn. repeat case_decide; try done; exfalso; naive_solver congruence.
    + intros t r Ht. unfold bf. cbn. case_decide as E; [|done]. destruct E as [<- <-]. congruence.
  - cbn [option_list]; rewrite app_nil_r. destruct o as [v|]; [|destruct (i_main _ _ I (FCheck t)) as [? [=]]; cbn; rewrite Hf; left].
    eapply finv_pop; [exact I|exact G'|exact Hf| |done].
    intros r Hr. unfold wf. cbn. case_decide as E; [|done]. destruct E as [-> Hv]. exfalso.
    pose proof (parent_of_Some _ _ _ _ Hx eq_refl) as Hxp.
    destruct Hend as [Hne|Hn]; [|congruence].
    rewrite (i_child _ _ I v x r) in Hne by (try done; congruence). cbn in Hne.
    destruct (child_alone ow ts ps st q f v _ f' I Hf) as [E1 E2].
    rewrite (cnt_perm _ _ _ Hf) in Hne. cbn in Hne. rewrite E1, E2 in Hne. done.
Qed.

(** * The pool with the workers *)

Record core := Core {
  c_tasks : list task;
  c_progs : list prog;
  c_started : list nat;
  c_qs : list (list nat);
  c_ss : list (list frame) }.
Definition core_of (s : tpool) : core :=
  Core (p_tasks s) (p_progs s) (p_started s) (w_queue <$> p_workers s) (w_stack <$> p_workers s).
Definition flat_of (c : core) : flat := Flat (c_tasks c) (c_progs c) (c_started c) (concat (c_qs c)) (concat (c_ss c)).

(** Steps inside one call. *)
Inductive gostep (ts : list task) (o : option nat) : fpc → list task → fpc → Prop :=
  | go_done v : o = Some v → gostep ts o (FRun PDone) (alter set_done v ts) (FSub v)
  | go_wait t k x : ts !! t = Some x → t_ctr x = 0%N → gostep ts o (FRun (PWait t k)) ts (FRun k)
  | go_stop k : gostep ts o (FRun (PStop k)) ts (FRun k)
  | go_act a k : gostep ts o (FRun (PAct a k)) ts (FRun k)
  | go_sub t : gostep ts o (FSub t) (alter (upd_ctr dec16) t ts) (FCheck t)
  | go_up t x p : ts !! t = Some x → t_ctr x = 0%N → t_parent x = Some p → gostep ts o (FCheck t) ts (FSub p).
Inductive popstep (ts : list task) : frame → Prop :=
  | pop_main : popstep ts (Frame None (FRun PDone))
  | pop_end o t x : ts !! t = Some x → t_ctr x ≠ 0%N ∨ t_parent x = None → popstep ts (Frame o (FCheck t)).

Inductive cstep : option (option nat) → core → nat → core → Prop :=
  | cs_submit ts ps sd qs ss w o c p k st q :
      ss !! w = Some (Frame o (FRun (PSubmit c p k)) :: st) → qs !! w = Some q →
      cstep (Some o) (Core ts ps sd qs ss) w
        (Core (count_in p ts ++ [Task p 1 false]) (ps ++ [c]) sd
           (<[w := q ++ [length ts]]> qs) (<[w := Frame o (FRun (k (length ts))) :: st]> ss))
  | cs_take ts ps sd qs ss w st j q1 u q2 c :
      ss !! w = Some st → qs !! j = Some (q1 ++ u :: q2) → ps !! u = Some c →
      cstep None (Core ts ps sd qs ss) w
        (Core ts ps (sd ++ [u]) (<[j := q1 ++ q2]> qs) (<[w := Frame (Some u) (FRun c) :: st]> ss))
  | cs_go ts ps sd qs ss w o pc st ts' pc' :
      ss !! w = Some (Frame o pc :: st) → gostep ts o pc ts' pc' →
      cstep None (Core ts ps sd qs ss) w (Core ts' ps sd qs (<[w := Frame o pc' :: st]> ss))
  | cs_pop ts ps sd qs ss w fr st :
      ss !! w = Some (fr :: st) → popstep ts fr →
      cstep None (Core ts ps sd qs ss) w (Core ts ps sd qs (<[w := st]> ss)).

Lemma fmap_alter_same {A B} (g : A → B) (f : A → A) i (l : list A) : (∀ x, g (f x) = g x) → g <$> alter f i l = g <$> l.
Proof.
  intros H. apply list_eq. intros j. rewrite !list_lookup_fmap. destruct (decide (j = i)) as [->|Hj].
  - rewrite list_lookup_alter. destruct (l !! i); cbn; [by rewrite H|done].
  - by rewrite list_lookup_alter_ne.
Qed.
Lemma fmap_alter_set {A B} (g : A → B) (f : A → A) i (l : list A) x : l !! i = Some x → g <$> alter f i l = <[i := g (f x)]> (g <$> l).
Proof.
  intros Hx. apply list_eq. intros j. rewrite !list_lookup_fmap. destruct (decide (j = i)) as [->|Hj].
  - rewrite list_lookup_alter, Hx. cbn. rewrite list_lookup_insert; [done|]. rewrite fmap_length. by eapply lookup_lt_Some.
  - rewrite list_lookup_alter_ne, list_lookup_insert_ne by done. by rewrite list_lookup_fmap.
Qed.
Lemma concat_insert {A} (l : list (list A)) i x : l !! i = Some x →
  ∃ r, concat l ≡ₚ x ++ r ∧ ∀ y, concat (<[i := y]> l) ≡ₚ y ++ r.
Proof.
  revert i. induction l as [|z l IH]; intros [|i] Hx; try done; cbn in *.
  - injection Hx as ->. exists (concat l). done.
  - destruct (IH i Hx) as (r & Hr & Hr'). exists (z ++ r). split.
    + rewrite Hr. solve_Permutation.
    + intros y. rewrite (Hr' y). solve_Permutation.
Qed.

Lemma cstep_flat l c w c' : cstep l c w c' → fstep l (flat_of c) (flat_of c').
Proof.
  intros [ts ps sd qs ss w0 o cc p k st q Hs Hq|ts ps sd qs ss w0 st j q1 u q2 cc Hs Hq Hc
         |ts ps sd qs ss w0 o pc st ts' pc' Hs Hg|ts ps sd qs ss w0 fr st Hs Hg]; unfold flat_of; cbn.
  - destruct (concat_insert _ _ _ Hs) as (r & Hr & Hr'). destruct (concat_insert _ _ _ Hq) as (rq & Hrq & Hrq').
    eapply (fs_submit _ _ _ _ _ o cc p k (st ++ r)).
    + rewrite Hr. done.
    + rewrite Hrq', Hrq. solve_Permutation.
    + rewrite Hr'. done.
  - destruct (concat_insert _ _ _ Hs) as (r & Hr & Hr'). destruct (concat_insert _ _ _ Hq) as (rq & Hrq & Hrq').
    eapply (fs_take _ _ _ _ _ u cc); [| done |].
    + rewrite Hrq', Hrq. solve_Permutation.
    + rewrite Hr', Hr. done.
  - destruct (concat_insert _ _ _ Hs) as (r & Hr & Hr').
    assert (concat ss ≡ₚ Frame o pc :: (st ++ r)) as H1 by (rewrite Hr; done).
    assert (concat (<[w0:=Frame o pc' :: st]> ss) ≡ₚ Frame o pc' :: (st ++ r)) as H2 by (rewrite Hr'; done).
    destruct Hg as [v ->| | | | |].
    + by eapply fs_done.
    + by eapply fs_wait.
    + by eapply fs_stop.
    + by eapply fs_act.
    + by eapply fs_sub.
    + by eapply fs_up.
  - destruct (concat_insert _ _ _ Hs) as (r & Hr & Hr').
    assert (concat ss ≡ₚ fr :: concat (<[w0:=st]> ss)) as H1 by (rewrite Hr, Hr'; done).
    destruct Hg as [|o t x Hx Hend].
    + by eapply fs_main.
    + by eapply fs_end.
Qed.

Lemma last_split {A} (l : list A) x : last l = Some x → l = pop_back l ++ [x].
Proof.
  destruct l as [|y l _] using rev_ind; [done|]. rewrite last_snoc, pop_back_snoc. by intros [= ->].
Qed.

Lemma get_task_core s w v r : get_task s w v = Some r →
  r = (None, s) ∨ ∃ j q1 u q2, r.1 = Some u ∧ (w_queue <$> p_workers s) !! j = Some (q1 ++ u :: q2) ∧
    core_of r.2 = Core (p_tasks s) (p_progs s) (p_started s) (<[j := q1 ++ q2]> (w_queue <$> p_workers s)) (w_stack <$> p_workers s) ∧
    p_sem r.2 = p_sem s.
Proof.
  unfold get_task. destruct (p_workers s !! w) as [x|] eqn:Hx; [|done]. cbn.
  destruct (last (w_queue x)) as [t|] eqn:Hl.
  - intros [= <-]. right. exists w, (pop_back (w_queue x)), t, []. cbn. split; [done|].
    apply last_split in Hl. rewrite list_lookup_fmap, Hx. cbn. rewrite <-Hl. split; [done|]. split; [|done].
    unfold core_of. cbn. rewrite (fmap_alter_set w_queue _ w _ x Hx), (fmap_alter_same w_stack) by done. cbn.
    by rewrite app_nil_r.
  - destruct v as [j|]; [|intros [= <-]; by left]. case_decide; [done|].
    destruct (p_workers s !! j) as [y|] eqn:Hy; [|done]. cbn.
    destruct (w_queue y) as [|t q] eqn:Hq; [intros [= <-]; by left|].
    intros [= <-]. right. exists j, [], t, q. cbn. split; [done|].
    rewrite list_lookup_fmap, Hy. cbn. rewrite Hq. split; [done|]. split; [|done].
    unfold core_of. cbn. by rewrite (fmap_alter_set w_queue _ j _ y Hy), (fmap_alter_same w_stack) by done.
Qed.
Lemma execute_core s w t x s' : (w_stack <$> p_workers s) !! w = Some x → wk_execute s w t = Some s' →
  ∃ c, p_progs s !! t = Some c ∧
    core_of s' = Core (p_tasks s) (p_progs s) (p_started s ++ [t]) (w_queue <$> p_workers s)
                   (<[w := Frame (Some t) (FRun c) :: x]> (w_stack <$> p_workers s)).
Proof.
  rewrite list_lookup_fmap. intros (y & Hy & ->)%fmap_Some. unfold wk_execute.
  destruct (p_progs s !! t) as [c|] eqn:Hc; [|done]. cbn. intros [= <-]. exists c. split; [done|].
  unfold core_of. cbn. by rewrite (fmap_alter_set w_stack _ w _ y Hy), (fmap_alter_same w_queue) by done.
Qed.

Lemma pool_step_core s w v s' : pool_step s w v = Some s' →
  core_of s' = core_of s ∨ ∃ l, cstep l (core_of s) w (core_of s').
Proof.
  unfold pool_step. destruct (p_workers s !! w) as [x|] eqn:Hx; [|done]. cbn.
  assert ((w_stack <$> p_workers s) !! w = Some (w_stack x)) as Hss by (by rewrite list_lookup_fmap, Hx).
  assert ((w_queue <$> p_workers s) !! w = Some (w_queue x)) as Hqs by (by rewrite list_lookup_fmap, Hx).
  assert (∀ r s1, (r = (None, s) ∨ ∃ j q1 u q2, r.1 = Some u ∧ (w_queue <$> p_workers s) !! j = Some (q1 ++ u :: q2) ∧
    core_of r.2 = Core (p_tasks s) (p_progs s) (p_started s) (<[j := q1 ++ q2]> (w_queue <$> p_workers s)) (w_stack <$> p_workers s) ∧
    p_sem r.2 = p_sem s) → ∀ u, r.1 = Some u → core_of s1 = core_of r.2 → wk_execute s1 w u = Some s' →
    core_of s' = core_of s ∨ ∃ l, cstep l (core_of s) w (core_of s')) as Htake.
  { intros r s1 Hr u Hu Hs1 He. destruct Hr as [->|(j & q1 & u' & q2 & Hu' & Hj & Hc & _)]; [done|].
    rewrite Hu in Hu'. injection Hu' as <-. right. exists None. rewrite Hc in Hs1. unfold core_of in Hs1. injection Hs1 as E1 E2 E3 E4 E5.
    destruct (execute_core s1 w u (w_stack x) s') as (c & Hpc & ->); [by rewrite E5|done|].
    rewrite E1, E2, E3, E4, E5. eapply cs_take; [exact Hss|exact Hj|by rewrite <-E2]. }
  destruct (w_stack x) as [|fr st] eqn:Hst.
  - destruct (w_base x).
    + destruct (get_task s w v) as [r|] eqn:Hr; [|done]. cbn. apply get_task_core in Hr.
      destruct r as [[u|] s1]; cbn [fst snd].
      * intros He. by apply (Htake _ _ Hr u eq_refl) in He.
      * intros [= <-]. left. destruct Hr as [[= ->]|(? & ? & ? & ? & [=] & _)]. cbn.
        unfold core_of. cbn. by rewrite !(fmap_alter_same _) by done.
    + intros [= <-]. left. unfold core_of. cbn. by rewrite !(fmap_alter_same _) by done.
    + done.
  - destruct fr as [o pc]. unfold frame_step. cbn.
    assert (∀ ts' pc', gostep (p_tasks s) o pc ts' pc' →
      cstep None (core_of s) w (core_of (upd_worker (set_stack (Frame o pc' :: st)) w (p_set_tasks s ts')))) as Hgo.
    { intros ts' pc' Hg. unfold core_of. cbn. rewrite (fmap_alter_set w_stack _ w _ x Hx), (fmap_alter_same w_queue) by done. cbn.
      by eapply cs_go. }
    assert (p_set_tasks s (p_tasks s) = s) as Hid by (by destruct s).
    assert (popstep (p_tasks s) (Frame o pc) → cstep None (core_of s) w (core_of (upd_worker (set_stack st) w s))) as Hpop.
    { intros Hg. unfold core_of. cbn. rewrite (fmap_alter_set w_stack _ w _ x Hx), (fmap_alter_same w_queue) by done. cbn.
      by eapply cs_pop. }
    destruct pc as [[|c p k|t k|k|a k]|t|t].
    + destruct o as [t|]; intros [= <-]; right; exists None.
      * apply Hgo. by constructor.
      * apply Hpop. constructor.
    + intros [= <-]. right. exists (Some o). unfold core_of. cbn.
      rewrite (fmap_alter_same w_queue) by done. rewrite (fmap_alter_set w_queue _ w _ x Hx).
      erewrite (fmap_alter_set w_stack _ w); [|by rewrite list_lookup_alter, Hx]. rewrite (fmap_alter_same w_stack) by done. cbn.
      by eapply cs_submit.
    + destruct (p_tasks s !! t) as [y|] eqn:Hy; [|done]. cbn. case_bool_decide as Hc.
      * intros [= <-]. right. exists None. rewrite <-Hid at 2. apply Hgo. by econstructor.
      * destruct (get_task s w v) as [r|] eqn:Hr; [|done]. cbn. apply get_task_core in Hr.
        destruct r as [[u|] s1]; cbn [fst snd].
        -- intros He. by apply (Htake _ _ Hr u eq_refl) in He.
        -- intros [= <-]. left. destruct Hr as [[= ->]|(? & ? & ? & ? & [=] & _)]. done.
    + intros [= <-]. right. exists None. unfold core_of. cbn.
      set (f := λ (i : nat) x, if decide (i = 0) then x else set_active false x).
      assert (∀ {B} (g : worker → B), (∀ x, g (set_active false x) = g x) → g <$> imap f (p_workers s) = g <$> p_workers s) as Himap.
      { intros B g Hg. apply list_eq. intros i. rewrite !list_lookup_fmap, list_lookup_imap.
        destruct (p_workers s !! i) as [y|]; [|done]. cbn. unfold f. case_decide; [done|]. by rewrite Hg. }
      rewrite (fmap_alter_same w_queue) by done. rewrite (Himap _ w_queue) by done.
      erewrite (fmap_alter_set w_stack _ w); [|by rewrite list_lookup_imap, Hx]. rewrite (Himap _ w_stack) by done. cbn.
      eapply cs_go; [done|constructor].
    + intros [= <-]. right. exists None. rewrite <-Hid at 2. apply Hgo. constructor.
    + intros [= <-]. right. exists None. apply Hgo. constructor.
    + destruct (p_tasks s !! t) as [y|] eqn:Hy; [|done]. cbn. case_bool_decide as Hc.
      * destruct (t_parent y) as [p|] eqn:Hp; intros [= <-]; right; exists None.
        -- rewrite <-Hid at 2. apply Hgo. by econstructor.
        -- apply Hpop. econstructor; [exact Hy|by right].
      * intros [= <-]. right. exists None. apply Hpop. econstructor; [exact Hy|by left].
Qed.
