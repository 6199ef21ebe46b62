(** C48: when main-thread systems and the other systems of a stage do not disturb each other. *)
From Verif Require Import Base HandlePool SparseMap SparseMapProofs Access AccessProofs ParallelFor Stage StageProofs Interleave PropStage.

(** * What runs beside each other *)

Lemma ilv_main {A} (m1 m2 : list A) ls tr : interleave (m2 :: ls) tr → interleave ((m1 ++ m2) :: ls) (m1 ++ tr).
Proof. intros H. induction m1 as [|x m1 IH]; [done|]. by eapply (interleave_cons _ 0). Qed.
Lemma run_trace_app {A} (main : list A) bs1 bs2 t1 t2 : run_trace main bs1 t1 → run_trace main bs2 t2 → run_trace main (bs1 ++ bs2) (t1 ++ t2).
Proof. induction 1 as [|b bs u1 u2 Hb _ IH]; intros H2; [done|]. rewrite <-app_assoc. cbn. constructor; [done|]. by apply IH. Qed.

(** Every main-thread system can run before, and after, every other system of the stage, whatever they access.
    So C48 holds for exactly the stages in which no main-thread system conflicts with an ordinary one; it is false in general. *)
Theorem C48_beside_partial (ss main : list sysm) e s' x y :
  stage_create sys_pat (Stage ss main) = Some (e, s') → x ∈ main → y ∈ ss →
  ∃ t1 t2, stage_trace e (t1 ++ x :: y :: t2) ∧ stage_trace e (t1 ++ y :: x :: t2).
Proof.
  intros Hc Hx Hy. destruct (C31_batches ss main) as (bs & Hc' & Hp & _). assert (e = StageExec bs main) as -> by congruence. clear Hc Hc'.
  rewrite <- Hp in Hy. apply elem_of_list_In, in_concat in Hy as (b & Hb%elem_of_list_In & Hyb%elem_of_list_In). apply elem_of_list_split in Hb as (bs1 & bs2 & ->).
  apply elem_of_list_split in Hx as (m1 & m2 & ->). apply elem_of_list_lookup in Hyb as [k Hk].
  set (main := m1 ++ x :: m2). unfold stage_trace. cbn [se_main se_batches].
  destruct (stage_trace_exists (StageExec bs1 main)) as [t1 H1]. destruct (stage_trace_exists (StageExec bs2 main)) as [t2 H2].
  unfold stage_trace in H1, H2. cbn [se_main se_batches] in H1, H2.
  destruct (interleave_exists (m2 :: <[k := []]> ((λ s, [s]) <$> b))) as [u Hu].
  assert (((λ s, [s]) <$> b) !! k = Some [y]) as Hk' by (by rewrite list_lookup_fmap, Hk).
  exists (t1 ++ m1), (u ++ t2). rewrite <- !app_assoc. split; (apply run_trace_app; [done|]).
  - pose proof (rt_cons main b bs2 (m1 ++ x :: y :: u) t2) as H. rewrite <- app_assoc in H. apply H; [|done]. apply ilv_main.
    apply (interleave_cons _ 0 x m2); [done|]. by apply (interleave_cons _ (S k) y []).
  - pose proof (rt_cons main b bs2 (m1 ++ y :: x :: u) t2) as H. rewrite <- app_assoc in H. apply H; [|done]. apply ilv_main.
    apply (interleave_cons _ (S k) y []); [done|]. by apply (interleave_cons _ 0 x m2).
Qed.

(** * Stages without such conflicts are deterministic *)

Section sequence.
Context {V L : Type}.

(** The systems of the main thread run one after another (stage.hpp:175-178): the number of the current one and the local states. *)
Definition seq_body (fs : list (body V L)) : body V (nat * list L) := λ st w,
  match fs !! st.1, st.2 !! st.1 with
  | Some f, Some l => match f l w with Some (l', w') => Some ((st.1, <[st.1 := l']> st.2), w') | None => Some ((S st.1, st.2), w) end
  | _, _ => None
  end.

Lemma seq_respects (R W : N → Prop) fs : (∀ f, f ∈ fs → respects R W f) → respects R W (seq_body fs).
Proof.
  intros H. split.
  - intros [i ls] w st' w' c E Hc. unfold seq_body in E. cbn [fst snd] in E. destruct (fs !! i) as [f|] eqn:Ef; [|done].
    destruct (ls !! i) as [l|]; [|done]. destruct (f l w) as [[l' w1]|] eqn:E1; simplify_eq; [|done].
    eapply (resp_write _ _ _ (H f (elem_of_list_lookup_2 _ _ _ Ef))); done.
  - intros [i ls] w1 w2 Hw. unfold seq_body. cbn [fst snd]. destruct (fs !! i) as [f|] eqn:Ef; [|done].
    destruct (ls !! i) as [l|]; [|done]. pose proof (resp_read _ _ _ (H f (elem_of_list_lookup_2 _ _ _ Ef)) l w1 w2 Hw) as Hr.
    destruct (f l w1) as [[l1 w1']|], (f l w2) as [[l2 w2']|]; try done. by destruct Hr as [-> ?].
Qed.

Lemma respects_weaken (R W R' W' : N → Prop) (f : body V L) : (∀ c, W c ∨ ¬ W c) → (∀ c, W c → R c) →
  (∀ c, R c → R' c) → (∀ c, W c → W' c) → respects R W f → respects R' W' f.
Proof.
  intros Hd HWR HR HW [Hw Hr]. split.
  - intros l w l' w' c E Hc. eapply Hw; [done|]. intros ?. by apply Hc, HW.
  - intros l w1 w2 Heq. specialize (Hr l w1 w2 (λ c Hc, Heq c (HR c Hc))).
    destruct (f l w1) as [[l1 w1']|] eqn:E1, (f l w2) as [[l2 w2']|] eqn:E2; try done. destruct Hr as [-> Hr]. split; [done|].
    intros c Hc. destruct (Hd c) as [Hwc|Hwc]; [by apply Hr, HWR|].
    rewrite (Hw _ _ _ _ c E1 Hwc), (Hw _ _ _ _ c E2 Hwc). by apply Heq.
Qed.

Lemma seq_run fs0 fs ls0 ls w ls' w' : run_in_order fs ls w ls' w' → length fs0 = length ls0 →
  run_alone (seq_body (fs0 ++ fs)) (length ls0, ls0 ++ ls) w (length (ls0 ++ ls), ls0 ++ ls') w'.
Proof.
  intros H. revert fs0 ls0. induction H as [w|f fs l ls w l' w1 ls' w' Ha _ IH]; intros fs0 ls0 Hl.
  - rewrite !app_nil_r. apply ra_done. unfold seq_body. cbn [fst snd]. by rewrite (lookup_ge_None_2 fs0) by lia.
  - assert (run_alone (seq_body (fs0 ++ f :: fs)) (S (length ls0), ls0 ++ l' :: ls) w1 (length (ls0 ++ l :: ls), ls0 ++ l' :: ls') w') as Hrest.
    { specialize (IH (fs0 ++ [f]) (ls0 ++ [l'])). rewrite !app_length in IH. cbn [length] in IH. rewrite <- !app_assoc in IH. cbn [app] in IH.
      rewrite !Nat.add_1_r in IH. rewrite app_length. cbn [length]. rewrite Nat.add_succ_r. apply IH. lia. }
    revert Hrest. set (z := (length (ls0 ++ l :: ls), ls0 ++ l' :: ls')). clearbody z. clear IH. intros Hrest.
    induction Ha as [l w Hd|l w l1 w2 l' w1 Hs _ IH].
    + eapply ra_step; [|exact Hrest]. unfold seq_body. cbn [fst snd]. rewrite !list_lookup_middle by done. by rewrite Hd.
    + eapply ra_step; [|by apply IH]. unfold seq_body. cbn [fst snd]. rewrite !list_lookup_middle by done. rewrite Hs.
      by rewrite insert_app_r_alt, Nat.sub_diag by lia.
Qed.
End sequence.

Section determinism.
Context {V L : Type}.
Context (body_of : sysm → body V L).
Hypothesis Hbody : ∀ s, respects (sys_reads (sy_args s)) (sys_writes (sy_args s)) (body_of s).

Lemma sys_writes_dec args c : sys_writes args c ∨ ¬ sys_writes args c.
Proof.
  unfold sys_writes. induction args as [|a l IH]; [right; intros (a & Ha & _); by apply elem_of_nil in Ha|].
  assert (Decision (arg_writes a c)) as [Hd|Hd] by (destruct a; cbn; apply _).
  - left. exists a. split; [by left|done].
  - destruct IH as [(x & Hx & Hxc)|IH]; [left; exists x; split; [by right|done]|].
    right. intros (x & [->|Hx]%elem_of_cons & Hxc); [done|]. apply IH. by exists x.
Qed.

Definition group_acc (g : list sysm) : access_sets :=
  (λ c, ∃ s, s ∈ g ∧ sys_reads (sy_args s) c, λ c, ∃ s, s ∈ g ∧ sys_writes (sy_args s) c).
Definition group_body (g : list sysm) : body V (nat * list L) := seq_body (body_of <$> g).

Lemma group_dec g c : (group_acc g).2 c ∨ ¬ (group_acc g).2 c.
Proof.
  cbn. induction g as [|s g IH]; [right; intros (s & Hs & _); by apply elem_of_nil in Hs|].
  destruct (sys_writes_dec (sy_args s) c) as [H|H]; [left; exists s; split; [by left|done]|].
  destruct IH as [(x & Hx & Hxc)|IH]; [left; exists x; split; [by right|done]|].
  right. intros (x & [->|Hx]%elem_of_cons & Hxc); [done|]. apply IH. by exists x.
Qed.
Lemma group_respects g : respects (group_acc g).1 (group_acc g).2 (group_body g).
Proof.
  apply seq_respects. intros f (s & -> & Hs)%elem_of_list_fmap. apply (respects_weaken (sys_reads (sy_args s)) (sys_writes (sy_args s))).
  - intros c. apply sys_writes_dec.
  - intros c. apply writes_reads.
  - intros c Hc. by exists s.
  - intros c Hc. by exists s.
  - apply Hbody.
Qed.

Lemma singles_run fs ls (w : gmap N V) ls' w' : run_in_order fs ls w ls' w' →
  run_in_order ((λ f : body V L, seq_body [f]) <$> fs) ((λ l, (0, [l])) <$> ls) w ((λ l, (1, [l])) <$> ls') w'.
Proof.
  induction 1 as [w|f fs l ls w l' w1 ls' w' Ha _ IH]; [constructor|]. rewrite !fmap_cons. econstructor; [|exact IH].
  apply (seq_run [] [f] [] [l] w [l'] w1); [|done]. econstructor; [done|constructor].
Qed.

(** The main thread and the tasks of a batch, with the local states of their systems: any interleaving of their accesses ends, in
    the world that is reached by running the main-thread systems and then the systems of the batch one after another.
    Missing: the hypothesis is not checked by the library. *)
Theorem C48_deterministic_partial (ss main : list sysm) e s' b (lm lm' lb lb' : list L) (w w1 w' : gmap N V) :
  stage_create sys_pat (Stage ss main) = Some (e, s') → b ∈ se_batches e →
  (∀ x y, x ∈ main → y ∈ ss → ¬ sys_conflict x y) →
  run_in_order (body_of <$> main) lm w lm' w1 → run_in_order (body_of <$> b) lb w1 lb' w' →
  let fs := seq_body (body_of <$> main) :: ((λ s, seq_body [body_of s]) <$> b) in
  let c0 := ((0, lm) :: ((λ l, (0, [l])) <$> lb), w) in
  let c1 := ((length lm, lm') :: ((λ l, (1, [l])) <$> lb'), w') in
  ∃ n, ∀ k c, nsteps (par_step fs) k c0 c → k ≤ n ∧ nsteps (par_step fs) (n - k) c c1 ∧ (finished fs c ↔ c = c1).
Proof.
  intros Hc Hb Hmain Hr1 Hr2. cbv zeta.
  destruct (C31_batches ss main) as (bs & Hc' & Hp & Hbs).
  assert (se_batches e = bs) as Hebs by (rewrite Hc in Hc'; by simplify_eq). rewrite Hebs in Hb.
  destruct (Hbs b Hb) as (_ & Hsub & Hnc).
  assert (((λ s, seq_body [body_of s]) <$> b) = (λ s, group_body [s]) <$> b) as -> by done.
  set (gs := main :: ((λ s, [s]) <$> b)).
  assert (seq_body (body_of <$> main) :: ((λ s, group_body [s]) <$> b) = group_body <$> gs) as ->.
  { unfold gs. rewrite fmap_cons, <- list_fmap_compose. done. }
  assert (∀ (i : nat) (rw : access_sets), (group_acc <$> gs) !! i = Some rw → ∃ g, gs !! i = Some g ∧ rw = group_acc g) as Hacc.
  { intros i rw Hi. rewrite list_lookup_fmap in Hi. apply fmap_Some in Hi as (g & Hg & ->). by exists g. }
  apply (interleaving_deterministic _ (group_acc <$> gs)).
  - by rewrite !fmap_length.
  - intros i rw c Hi. destruct (Hacc i rw Hi) as (g & _ & ->). apply group_dec.
  - intros i rw c Hi. destruct (Hacc i rw Hi) as (g & _ & ->). intros (s & Hs & Hw). exists s. split; [done|]. by apply writes_reads.
  - intros i f rw Hf Hi. destruct (Hacc i rw Hi) as (g & Hg & ->). rewrite list_lookup_fmap, Hg in Hf. cbn in Hf.
    apply (inj Some) in Hf as <-. apply group_respects.
  - assert (∀ x y, sys_conflict x y → sys_conflict y x) as Hsym by (intros x y (c & Hcc); exists c; naive_solver).
    assert (∀ (i j : nat) g1 g2 x y, i < j → gs !! i = Some g1 → gs !! j = Some g2 → x ∈ g1 → y ∈ g2 → ¬ sys_conflict x y) as Hno.
    { intros i j g1 g2 x y Hij Hi Hj Hx Hy. destruct j as [|j]; [lia|]. unfold gs in Hi, Hj. change (((λ s, [s]) <$> b) !! j = Some g2) in Hj. rewrite list_lookup_fmap in Hj.
      apply fmap_Some in Hj as (y' & Hj & ->). apply elem_of_list_singleton in Hy as ->. destruct i as [|i].
      - cbn in Hi. injection Hi as ->. apply Hmain; [done|]. eapply elem_of_submseteq; [by eapply elem_of_list_lookup_2|by apply sublist_submseteq].
      - change (((λ s, [s]) <$> b) !! i = Some g1) in Hi. rewrite list_lookup_fmap in Hi. apply fmap_Some in Hi as (x' & Hi & ->). apply elem_of_list_singleton in Hx as ->. apply (Hnc i j); [lia|done|done]. }
    intros i j rw1 rw2 Hij Hi Hj. destruct (Hacc i rw1 Hi) as (g1 & Hg1 & ->). destruct (Hacc j rw2 Hj) as (g2 & Hg2 & ->).
    assert (∀ x y, x ∈ g1 → y ∈ g2 → ¬ sys_conflict x y) as Hn.
    { intros x y Hx Hy. destruct (decide (i < j)); [by eapply (Hno i j)|]. intros H%Hsym. revert H. eapply (Hno j i); [lia|done|done|done|done]. }
    intros c. cbn. split.
    + intros [(x & Hx & Hxc) H2]. assert (∃ y, y ∈ g2 ∧ (sys_reads (sy_args y) c ∨ sys_writes (sy_args y) c)) as (y & Hy & Hyc) by naive_solver.
      apply (Hn x y Hx Hy). exists c. left. naive_solver.
    + intros [(y & Hy & Hyc) H2]. assert (∃ x, x ∈ g1 ∧ (sys_reads (sy_args x) c ∨ sys_writes (sy_args x) c)) as (x & Hx & Hxc) by naive_solver.
      apply (Hn x y Hx Hy). exists c. right. naive_solver.
  - unfold gs. rewrite fmap_cons. econstructor.
    + pose proof (seq_run [] (body_of <$> main) [] lm w lm' w1 Hr1 eq_refl) as Hs. exact Hs.
    + apply singles_run in Hr2. rewrite <- list_fmap_compose in Hr2. rewrite <- list_fmap_compose. done.
Qed.
End determinism.

(** Example: a main-thread system and a task that write different components; the main thread runs its system twice as long. *)
Local Ltac gm := apply (bool_decide_unpack _); vm_compute; exact I.
Example C48_example :
  (∀ s, respects (sys_reads (sy_args s)) (sys_writes (sy_args s)) (add_body s)) ∧
  ∃ e s', stage_create sys_pat (Stage [writeA 1] [writeB 2; writeB 3]) = Some (e, s') ∧ [writeA 1] ∈ se_batches e ∧
    (∀ x y, x ∈ [writeB 2; writeB 3] → y ∈ [writeA 1] → ¬ sys_conflict x y) ∧
    run_in_order (add_body <$> [writeB 2; writeB 3]) [[1%N]; [1%N]] ∅ [[]; []] {[1%N := 5]} ∧
    run_in_order (add_body <$> [writeA 1]) [[0%N]] {[1%N := 5]} [[]] {[0%N := 1; 1%N := 5]} ∧
    (** a proper interleaving *)
    let fs := seq_body (add_body <$> [writeB 2; writeB 3]) :: ((λ s, seq_body [add_body s]) <$> [writeA 1]) in
    nsteps (par_step fs) 2 ([(0, [[1%N]; [1%N]]); (0, [[0%N]])], ∅) ([(0, [[]; [1%N]]); (0, [[]])], {[0%N := 1; 1%N := 2]}).
Proof.
  split; [exact (proj1 C34_example)|].
  destruct (C31_batches [writeA 1] [writeB 2; writeB 3]) as (bs & He & Hp & _).
  eexists _, _. split; [exact He|]. cbn [se_batches]. assert (bs = [[writeA 1]]) as ->.
  { assert (stage_batches sys_pat 1 [writeA 1] = Some [[writeA 1]]) as H by (by vm_compute).
    unfold stage_create in He. cbn [st_systems length] in He. rewrite H in He. cbn in He. congruence. }
  split; [by left|]. split; [|split; [|split]].
  - intros x y Hx ->%elem_of_list_singleton (c & Hc).
    assert (sy_args x = [ArgView [(false, 1%N)]]) as Ex by (apply elem_of_cons in Hx as [->|Hx]; [done|]; by apply elem_of_list_singleton in Hx as ->).
    rewrite Ex in Hc. destruct Hc as [[(a & Ha & H1) H2]|[(a & Ha & H1) H2]]; apply elem_of_list_singleton in Ha as ->;
      cbn in H1; apply elem_of_list_singleton in H1; injection H1 as ->;
      destruct H2 as [(a & Ha & H2)|(a & Ha & H2)]; apply elem_of_list_singleton in Ha as ->; cbn in H2; apply elem_of_list_singleton in H2; done.
  - apply (ro_cons _ _ _ _ _ [] {[1%N := 2]}); [|apply (ro_cons _ _ _ _ _ [] {[1%N := 5]}); [|constructor]].
    + apply (ra_step _ _ _ [] {[1%N := 2]}); [gm|]. by apply ra_done.
    + apply (ra_step _ _ _ [] {[1%N := 5]}); [gm|]. by apply ra_done.
  - apply (ro_cons _ _ _ _ _ [] {[0%N := 1; 1%N := 5]}); [|constructor].
    apply (ra_step _ _ _ [] {[0%N := 1; 1%N := 5]}); [gm|]. by apply ra_done.
  - cbv zeta. apply (nsteps_l _ _ _ ([(0, [[1%N]; [1%N]]); (0, [[]])], {[0%N := 1]})).
    { apply (par_step_i _ 1 (seq_body [add_body (writeA 1)]) (0, [[0%N]]) (0, [[]]) [(0, [[1%N]; [1%N]]); (0, [[0%N]])]); [done|done|gm]. }
    apply (nsteps_l _ _ _ ([(0, [[]; [1%N]]); (0, [[]])], {[0%N := 1; 1%N := 2]})); [|constructor].
    apply (par_step_i _ 0 (seq_body (add_body <$> [writeB 2; writeB 3])) (0, [[1%N]; [1%N]]) (0, [[]; [1%N]]) [(0, [[1%N]; [1%N]]); (0, [[]])]); [done|done|gm].
Qed.

Print Assumptions C48_beside_partial.
Print Assumptions C48_deterministic_partial.
