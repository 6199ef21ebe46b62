(** Systems of a batch as small-step programs over shared component columns.  This file is a
    specification of user code, not a model of a file of the library: the systems' bodies are arbitrary,
    they are only assumed to touch the components their parameters give access to. *)
From Verif Require Import Base.

(** Components read and components written. *)
Notation access_sets := ((N → Prop) * (N → Prop))%type.

Section bodies.
(** [V]: the column of a component (all its values in the registry); [L]: local state of a system. *)
Context {V L : Type}.
Notation world := (gmap N V).

(** One step of a system; [None]: the system has returned. *)
Definition body := L → world → option (L * world).

(** The body reads only components in [R] and changes only components in [W]. *)
Record respects (R W : N → Prop) (f : body) : Prop := {
  resp_write : ∀ l w l' w' c, f l w = Some (l', w') → ¬ W c → w' !! c = w !! c;
  resp_read : ∀ l w1 w2, (∀ c, R c → w1 !! c = w2 !! c) →
    match f l w1, f l w2 with
    | None, None => True
    | Some (l1, w1'), Some (l2, w2') => l1 = l2 ∧ ∀ c, R c → w1' !! c = w2' !! c
    | _, _ => False
    end }.

(** A configuration of systems running in parallel: their local states and the world. *)
Notation config := (list L * world)%type.
Inductive par_step (fs : list body) : config → config → Prop :=
  | par_step_i i f l l' ls w w' :
      fs !! i = Some f → ls !! i = Some l → f l w = Some (l', w') →
      par_step fs (ls, w) (<[i := l']> ls, w').
Definition finished (fs : list body) (c : config) : Prop :=
  ∀ i f l, fs !! i = Some f → c.1 !! i = Some l → f l c.2 = None.

(** One system run to its end without interruption; the systems of a list run one after another. *)
Inductive run_alone (f : body) : L → world → L → world → Prop :=
  | ra_done l w : f l w = None → run_alone f l w l w
  | ra_step l w l1 w1 l' w' : f l w = Some (l1, w1) → run_alone f l1 w1 l' w' → run_alone f l w l' w'.
Inductive run_in_order : list body → list L → world → list L → world → Prop :=
  | ro_nil w : run_in_order [] [] w [] w
  | ro_cons f fs l ls w l' w1 ls' w' :
      run_alone f l w l' w1 → run_in_order fs ls w1 ls' w' →
      run_in_order (f :: fs) (l :: ls) w (l' :: ls') w'.

(** * Commutation *)

(** Neither program writes what the other accesses. *)
Definition separate (rw1 rw2 : access_sets) : Prop :=
  ∀ c, ¬ (rw1.2 c ∧ (rw2.1 c ∨ rw2.2 c)) ∧ ¬ (rw2.2 c ∧ (rw1.1 c ∨ rw1.2 c)).

Context (fs : list body) (acc : list access_sets).
Hypothesis Hlen : length acc = length fs.
Hypothesis Hdec : ∀ (i : nat) (rw : access_sets) c, acc !! i = Some rw → rw.2 c ∨ ¬ rw.2 c.
Hypothesis Hsub : ∀ (i : nat) (rw : access_sets) c, acc !! i = Some rw → rw.2 c → rw.1 c.
Hypothesis Hresp : ∀ (i : nat) (f : body) (rw : access_sets), fs !! i = Some f → acc !! i = Some rw → respects rw.1 rw.2 f.
Hypothesis Hsep : ∀ (i j : nat) (rw1 rw2 : access_sets), i ≠ j → acc !! i = Some rw1 → acc !! j = Some rw2 → separate rw1 rw2.

Lemma acc_of_body (i : nat) f : fs !! i = Some f → ∃ rw, acc !! i = Some rw.
Proof. intros H%lookup_lt_Some. apply lookup_lt_is_Some. lia. Qed.

(** A step of another system does not influence a system. *)
Lemma other_step (i j : nat) f g l k k' w w' :
  i ≠ j → fs !! i = Some f → fs !! j = Some g → g k w = Some (k', w') →
  match f l w, f l w' with
  | None, None => True
  | Some (l1, w1), Some (l2, w2) => l1 = l2 ∧ ∀ (rw : access_sets) c, acc !! i = Some rw → rw.1 c → w1 !! c = w2 !! c
  | _, _ => False
  end.
Proof.
  intros Hij Hf Hg Hstep. destruct (acc_of_body i f Hf) as [rw Hrw]. destruct (acc_of_body j g Hg) as [rw' Hrw'].
  pose proof (resp_read _ _ _ (Hresp i f rw Hf Hrw) l w w') as H.
  assert (∀ c, rw.1 c → w !! c = w' !! c) as Heq.
  { intros c Hc. symmetry. eapply (resp_write _ _ _ (Hresp j g rw' Hg Hrw')); [exact Hstep|].
    intros Hw. destruct (Hsep i j rw rw' Hij Hrw Hrw' c) as [_ []]. split; [done|by left]. }
  specialize (H Heq). destruct (f l w) as [[l1 w1]|], (f l w') as [[l2 w2]|]; try done.
  destruct H as [-> H]. split; [done|]. intros rw0 c Hrw0 Hc. assert (rw0 = rw) as -> by congruence. by apply H.
Qed.

Lemma par_diamond c c1 c2 : par_step fs c c1 → par_step fs c c2 →
  c1 = c2 ∨ ∃ d, par_step fs c1 d ∧ par_step fs c2 d.
Proof.
  intros H1 H2. destruct H1 as [i f l l' ls w w1 Hf Hl Hs1].
  inversion H2 as [j g k k' ls' w' w2 Hg Hk Hs2]; subst ls' w'.
  destruct (decide (i = j)) as [<-|Hij].
  { left. assert (f = g) as <- by congruence. assert (l = k) as <- by congruence. congruence. }
  right. pose proof (other_step i j f g l k k' w w2 Hij Hf Hg Hs2) as Hi. rewrite Hs1 in Hi.
  pose proof (other_step j i g f k l l' w w1 (not_eq_sym Hij) Hg Hf Hs1) as Hj. rewrite Hs2 in Hj.
  destruct (f l w2) as [[l12 w12]|] eqn:E1; [|done]. destruct Hi as [<- Hi].
  destruct (g k w1) as [[k21 w21]|] eqn:E2; [|done]. destruct Hj as [<- Hj].
  destruct (acc_of_body i f Hf) as [rw Hrw]. destruct (acc_of_body j g Hg) as [rw' Hrw'].
  pose proof (Hresp i f rw Hf Hrw) as Rf. pose proof (Hresp j g rw' Hg Hrw') as Rg.
  assert (w21 = w12) as ->.
  { apply map_eq. intros c. destruct (Hdec i rw c Hrw) as [Wi|Ni].
    - assert (¬ rw'.2 c) as Nj. { intros Wj. destruct (Hsep i j rw rw' Hij Hrw Hrw' c) as [[] _]. split; [done|by right]. }
      rewrite (resp_write _ _ _ Rg _ _ _ _ c E2 Nj). apply (Hi rw c Hrw). by apply (Hsub i rw).
    - rewrite (resp_write _ _ _ Rf _ _ _ _ c E1 Ni).
      destruct (Hdec j rw' c Hrw') as [Wj|Nj].
      + symmetry. apply (Hj rw' c Hrw'). by apply (Hsub j rw').
      + rewrite (resp_write _ _ _ Rg _ _ _ _ c E2 Nj), (resp_write _ _ _ Rf _ _ _ _ c Hs1 Ni).
        by rewrite (resp_write _ _ _ Rg _ _ _ _ c Hs2 Nj). }
  exists (<[j := k']> (<[i := l']> ls), w12). split.
  - apply (par_step_i fs j g k); [done|by rewrite list_lookup_insert_ne|done].
  - rewrite list_insert_commute by done. apply (par_step_i fs i f l); [done|by rewrite list_lookup_insert_ne|done].
Qed.

Lemma finished_no_step c c' : finished fs c → par_step fs c c' → False.
Proof. intros Hfin Hs. destruct Hs as [i f l l' ls w w' Hf Hl Hs]. specialize (Hfin i f l Hf Hl). cbn in Hfin. congruence. Qed.

Lemma par_first_step n c f c1 : nsteps (par_step fs) n c f → finished fs f → par_step fs c c1 →
  ∃ m, n = S m ∧ nsteps (par_step fs) m c1 f.
Proof.
  revert c c1. induction n as [|n IH]; intros c c1 Hn Hf Hs.
  { inversion Hn; subst. exfalso. by eapply finished_no_step. }
  inversion Hn as [|? ? c2 ? Hs2 Hn2]; subst. exists n. split; [done|].
  destruct (par_diamond c c1 c2 Hs Hs2) as [->|(d & H1 & H2)]; [done|].
  destruct (IH c2 d Hn2 Hf H2) as (m & -> & Hm). by eapply nsteps_l.
Qed.

Lemma par_confluent n k c f c' : nsteps (par_step fs) n c f → finished fs f → nsteps (par_step fs) k c c' →
  k ≤ n ∧ nsteps (par_step fs) (n - k) c' f.
Proof.
  intros Hn Hf Hk. revert n Hn. induction Hk as [c|k c c1 c' Hs _ IH]; intros n Hn.
  - split; [lia|]. by rewrite Nat.sub_0_r.
  - destruct (par_first_step n c f c1 Hn Hf Hs) as (m & -> & Hm). destruct (IH m Hm) as [H1 H2]. split; [lia|done].
Qed.

(** A system that has returned stays returned. *)
Lemma finished_stable (i : nat) f l c c' : fs !! i = Some f → f l c.2 = None → c.1 !! i = Some l →
  par_step fs c c' → f l c'.2 = None ∧ c'.1 !! i = Some l.
Proof.
  intros Hf Hd Hl Hs. destruct Hs as [j g k k' ls w w' Hg Hk Hs]. cbn in *.
  destruct (decide (i = j)) as [<-|Hij]; [exfalso; congruence|].
  pose proof (other_step i j f g l k k' w w' Hij Hf Hg Hs) as H. rewrite Hd in H.
  destruct (f l w'); [done|]. split; [done|]. by rewrite list_lookup_insert_ne.
Qed.
Lemma finished_stable_n n (i : nat) f l c c' : fs !! i = Some f → f l c.2 = None → c.1 !! i = Some l →
  nsteps (par_step fs) n c c' → f l c'.2 = None ∧ c'.1 !! i = Some l.
Proof.
  intros Hf Hd Hl Hs. revert Hd Hl. induction Hs as [c|n c c1 c' Hs _ IH]; intros Hd Hl; [done|].
  destruct (finished_stable i f l c c1 Hf Hd Hl Hs) as [H1 H2]. by apply IH.
Qed.
End bodies.
Arguments body : clear implicits.

(** * Running in order is one interleaving *)
Section order.
Context {V L : Type}.
Implicit Types fs : list (body V L).

Lemma run_alone_steps f (l l' : L) (w w' : gmap N V) fs1 fs2 ls1 ls2 :
  run_alone f l w l' w' → length fs1 = length ls1 →
  ∃ n, nsteps (par_step (fs1 ++ f :: fs2)) n (ls1 ++ l :: ls2, w) (ls1 ++ l' :: ls2, w') ∧ f l' w' = None.
Proof.
  intros H Hlen. induction H as [l w Hd|l w l1 w1 l' w' Hs _ (n & Hn & Hd)].
  - exists 0. split; [constructor|done].
  - exists (S n). split; [|done]. eapply nsteps_l; [|exact Hn].
    replace (ls1 ++ l1 :: ls2) with (<[length fs1 := l1]> (ls1 ++ l :: ls2)).
    + eapply par_step_i; [by rewrite list_lookup_middle|by rewrite Hlen, list_lookup_middle|done].
    + rewrite Hlen, insert_app_r_alt, Nat.sub_diag by lia. done.
Qed.

Lemma run_in_order_lengths fs (ls ls' : list L) (w w' : gmap N V) :
  run_in_order fs ls w ls' w' → length fs = length ls ∧ length fs = length ls'.
Proof. induction 1; cbn; naive_solver lia. Qed.

(** Running in order is an interleaving that ends with every system finished. *)
Lemma run_in_order_steps fs0 fs (ls ls' : list L) (w w' : gmap N V) ls0 acc :
  length acc = length (fs0 ++ fs) →
  (∀ (i : nat) (rw : access_sets) c, acc !! i = Some rw → rw.2 c ∨ ¬ rw.2 c) →
  (∀ (i : nat) (rw : access_sets) c, acc !! i = Some rw → rw.2 c → rw.1 c) →
  (∀ (i : nat) (f : body V L) (rw : access_sets), (fs0 ++ fs) !! i = Some f → acc !! i = Some rw → respects rw.1 rw.2 f) →
  (∀ (i j : nat) (rw1 rw2 : access_sets), i ≠ j → acc !! i = Some rw1 → acc !! j = Some rw2 → separate rw1 rw2) →
  run_in_order fs ls w ls' w' → length fs0 = length ls0 →
  ∃ n, nsteps (par_step (fs0 ++ fs)) n (ls0 ++ ls, w) (ls0 ++ ls', w') ∧
    ∀ (i : nat) (f : body V L) l, length fs0 ≤ i → (fs0 ++ fs) !! i = Some f → (ls0 ++ ls') !! i = Some l → f l w' = None.
Proof.
  intros Ha Hdec Hsub Hresp Hsep H. revert fs0 ls0 Ha Hresp. induction H as [w|f fs l ls w l' w1 ls' w' Hal Ho IH]; intros fs0 ls0 Ha Hresp Hlen.
  - exists 0. split; [constructor|]. intros i f l Hi Hf. rewrite app_nil_r in Hf. apply lookup_lt_Some in Hf. lia.
  - destruct (run_alone_steps f l l' w w1 fs0 fs ls0 ls Hal Hlen) as (n1 & Hn1 & Hd).
    assert (fs0 ++ f :: fs = (fs0 ++ [f]) ++ fs) as Hfs by (by rewrite <- app_assoc).
    destruct (IH (fs0 ++ [f]) (ls0 ++ [l'])) as (n2 & Hn2 & Hfin); [by rewrite <- Hfs|by rewrite <- Hfs|rewrite !app_length; cbn; lia|].
    rewrite <- Hfs in Hn2, Hfin. rewrite <- !app_assoc in Hn2. cbn in Hn2.
    rewrite <- !app_assoc in Hfin. cbn in Hfin.
    exists (n1 + n2). split; [by eapply nsteps_trans|]. intros i g k Hi Hg Hk.
    destruct (decide (i = length fs0)) as [->|Hne].
    + rewrite list_lookup_middle in Hg by done. rewrite Hlen, list_lookup_middle in Hk by done. simplify_eq.
      assert (g k (ls0 ++ k :: ls', w').2 = None ∧ (ls0 ++ k :: ls', w').1 !! length fs0 = Some k) as [H1 _]; [|done].
      eapply (finished_stable_n (fs0 ++ g :: fs) acc Ha Hdec Hsub Hresp Hsep n2 _ g k (ls0 ++ k :: ls, w1)); [|exact Hd| |exact Hn2].
      * by rewrite list_lookup_middle.
      * cbn. by rewrite Hlen, list_lookup_middle.
    + apply (Hfin i); [rewrite app_length; cbn; lia|done|done].
Qed.

(** Every interleaving of separate programs does what running them in order does. *)
Theorem interleaving_deterministic fs acc (ls ls' : list L) (w w' : gmap N V) :
  length acc = length fs →
  (∀ (i : nat) (rw : access_sets) c, acc !! i = Some rw → rw.2 c ∨ ¬ rw.2 c) →
  (∀ (i : nat) (rw : access_sets) c, acc !! i = Some rw → rw.2 c → rw.1 c) →
  (∀ (i : nat) (f : body V L) (rw : access_sets), fs !! i = Some f → acc !! i = Some rw → respects rw.1 rw.2 f) →
  (∀ (i j : nat) (rw1 rw2 : access_sets), i ≠ j → acc !! i = Some rw1 → acc !! j = Some rw2 → separate rw1 rw2) →
  run_in_order fs ls w ls' w' →
  ∃ n, ∀ k c, nsteps (par_step fs) k (ls, w) c →
    k ≤ n ∧ nsteps (par_step fs) (n - k) c (ls', w') ∧ (finished fs c ↔ c = (ls', w')).
Proof.
  intros Ha Hdec Hsub Hresp Hsep Ho.
  destruct (run_in_order_steps [] fs ls ls' w w' [] acc Ha Hdec Hsub Hresp Hsep Ho eq_refl) as (n & Hn & Hfin). cbn in Hn, Hfin.
  assert (finished fs (ls', w')) as HF.
  { intros i f l Hf Hl. apply (Hfin i f l); [lia|done|done]. }
  exists n. intros k c Hk.
  destruct (par_confluent fs acc Ha Hdec Hsub Hresp Hsep n k _ _ c Hn HF Hk) as [H1 H2].
  split; [done|]. split; [done|]. split; [|by intros ->].
  intros Hc. inversion H2 as [|? ? ? ? Hs]; [done|]. exfalso. by eapply finished_no_step.
Qed.
End order.
