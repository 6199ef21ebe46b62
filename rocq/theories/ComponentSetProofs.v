(** The bitset and the ordered list of a component_meta_set always describe the same set. *)
From Verif Require Import Base Bitset BitsetProofs ComponentSet.

Record ms_wf (s : meta_set) : Prop := {
  mwf_canon : bs_canon (ms_ids s);
  mwf_nd : NoDup (ms_metas s);
  mwf_test : ∀ c, bs_test (ms_ids s) c = bool_decide (c ∈ ms_metas s) }.

Lemma ms_wf_init : ms_wf ms_init.
Proof.
  split; simpl; [apply canon_init|constructor|]. intros c. rewrite init_test. done.
Qed.

Lemma ms_contains_spec s c : ms_wf s → ms_contains s c = bool_decide (c ∈ ms_metas s).
Proof. intros Hwf. apply (mwf_test _ Hwf). Qed.

Lemma ms_insert_wf s c : ms_wf s → ms_wf (ms_insert s c).
Proof.
  intros Hwf. unfold ms_insert. rewrite (ms_contains_spec _ _ Hwf).
  case_bool_decide as Hc; [done|]. destruct Hwf. split; simpl.
  - by apply set_true_canon.
  - apply NoDup_app. split; [done|]. split; [set_solver|]. apply NoDup_singleton.
  - intros c'. rewrite set_true_test, mwf_test0.
    case_bool_decide as H1; case_bool_decide as H2; case_bool_decide as H3; simpl; try done; set_solver.
Qed.

Lemma ms_insert_metas s c : ms_wf s →
  ms_metas (ms_insert s c) = if decide (c ∈ ms_metas s) then ms_metas s else ms_metas s ++ [c].
Proof.
  intros Hwf. unfold ms_insert. rewrite (ms_contains_spec _ _ Hwf).
  case_bool_decide; case_decide; try done.
Qed.

Lemma ms_erase_wf s c : ms_wf s → ms_wf (ms_erase s c).
Proof.
  intros Hwf. unfold ms_erase. rewrite (ms_contains_spec _ _ Hwf).
  case_bool_decide as Hc; [|done]. destruct Hwf. split; simpl.
  - by apply set_false_canon.
  - by apply NoDup_filter.
  - intros c'. rewrite set_false_test, mwf_test0.
    case_bool_decide as H1; case_bool_decide as H2; case_bool_decide as H3; simpl; try done;
    rewrite elem_of_list_filter in H3; naive_solver.
Qed.

Lemma ms_erase_metas s c : ms_wf s → ms_metas (ms_erase s c) = filter (λ x, x ≠ c) (ms_metas s).
Proof.
  intros Hwf. unfold ms_erase. rewrite (ms_contains_spec _ _ Hwf).
  case_bool_decide as Hc; [done|]. 
  assert (∀ l : list N, c ∉ l → filter (λ x, x ≠ c) l = l) as H; [|by rewrite H].
  induction l as [|x l IH]; [done|]. intros [? ?]%not_elem_of_cons.
  rewrite filter_cons_True by done. by rewrite IH.
Qed.

Lemma ms_eq_iff s t : ms_wf s → ms_wf t →
  (∀ c, c ∈ ms_metas s ↔ c ∈ ms_metas t) ↔ ms_ids s = ms_ids t.
Proof.
  intros Hs Ht. split.
  - intros H. apply canon_ext; [apply Hs|apply Ht|]. intros p.
    rewrite (mwf_test _ Hs), (mwf_test _ Ht). by apply bool_decide_ext.
  - intros E c. pose proof (mwf_test _ Hs c) as H1. pose proof (mwf_test _ Ht c) as H2.
    rewrite E in H1. rewrite H2 in H1. apply bool_decide_eq_inv in H1. by rewrite H1.
Qed.

Lemma ms_fold_insert_wf cs s : ms_wf s → ms_wf (fold_left ms_insert cs s).
Proof.
  revert s. induction cs as [|c cs IH]; intros s Hs; simpl; [done|]. apply IH. by apply ms_insert_wf.
Qed.

Lemma ms_create_wf cs : ms_wf (ms_create cs).
Proof. apply ms_fold_insert_wf, ms_wf_init. Qed.

Lemma ms_fold_insert_metas cs s : ms_wf s → NoDup (ms_metas s ++ cs) →
  ms_metas (fold_left ms_insert cs s) = ms_metas s ++ cs.
Proof.
  revert s. induction cs as [|c cs IH]; intros s Hs Hnd; simpl; [by rewrite app_nil_r|].
  assert (c ∉ ms_metas s) as Hc.
  { apply NoDup_app in Hnd as (_ & H & _). intros ?. apply (H c); [done|left]. }
  assert (ms_metas (ms_insert s c) = ms_metas s ++ [c]) as E.
  { rewrite ms_insert_metas by done. by rewrite decide_False. }
  rewrite IH; [|by apply ms_insert_wf|].
  - by rewrite E, <- app_assoc.
  - rewrite E, <- app_assoc. done.
Qed.

Lemma ms_create_metas cs : NoDup cs → ms_metas (ms_create cs) = cs.
Proof. intros. unfold ms_create. rewrite ms_fold_insert_metas; [done|apply ms_wf_init|done]. Qed.

Lemma ms_run_wf os : ms_wf (ms_run os).
Proof.
  unfold ms_run. assert (ms_wf ms_init) as H by apply ms_wf_init. revert H. generalize ms_init.
  induction os as [|o os IH]; intros s Hs; simpl; [done|]. apply IH.
  destruct o; [by apply ms_insert_wf|by apply ms_erase_wf].
Qed.
