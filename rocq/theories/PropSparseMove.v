(** C69: copying, moving and assigning sparse maps. *)
From Verif Require Import Base SparseMap SparseMapProofs PropSparse SparseMove.
Ltac Zify.zify_post_hook ::= Z.div_mod_to_equations.

Section spec.
Context {V : Type}.
Variable kmod : N.
Variable dflt : V.

(** What the program knows of a map: its contents, that it was moved from, or that it was destroyed. *)
Inductive sview := Holds (s : gmap N V) | MovedFrom | Gone.

Definition sv_step (s : list sview) (o : sw_op V) : option (list sview) :=
  match o with
  | SwNew => Some (s ++ [Holds ∅])
  | SwOn i o => match s !! i with Some (Holds m) => Some (<[i := Holds (map_after m o)]> s) | _ => None end
  | SwCopy i => match s !! i with Some (Holds m) => Some (s ++ [Holds m]) | _ => None end
  | SwMove i => match s !! i with Some (Holds m) => Some (<[i := MovedFrom]> s ++ [Holds m]) | _ => None end
  | SwCopyAssign i j =>
      match s !! i, s !! j with Some (Holds _ | MovedFrom), Some (Holds m) => Some (<[i := Holds m]> s) | _, _ => None end
  | SwMoveAssign i j =>
      if decide (i = j) then None
      else match s !! i, s !! j with
           | Some (Holds _ | MovedFrom), Some (Holds m) => Some (<[j := MovedFrom]> (<[i := Holds m]> s))
           | _, _ => None
           end
  | SwDestroy i => match s !! i with Some (Holds _ | MovedFrom) => Some (<[i := Gone]> s) | _ => None end
  end.
Definition sv_answer (s : list sview) (o : sw_op V) (a : sm_out V) : Prop :=
  match o with
  | SwOn i o => match s !! i with Some (Holds m) => map_answer m o a | _ => False end
  | _ => a = SmUnit
  end.
(** Every map stays smaller than the number of keys. *)
Definition sv_room (s : list sview) : Prop := Forall (λ v, match v with Holds m => (N.of_nat (size m) < kmod)%N | _ => True end) s.
(** Programs that use maps only while they hold contents, except that a moved-from map may be assigned to or destroyed. *)
Fixpoint sv_valid (s : list sview) (os : list (sw_op V)) : Prop :=
  match os with
  | [] => True
  | o :: os => ∃ s1, sv_step s o = Some s1 ∧ sv_room s1 ∧ sv_valid s1 os
  end.
Fixpoint sv_answers (s : list sview) (os : list (sw_op V)) (as_ : list (sm_out V)) : Prop :=
  match os, as_ with
  | [], [] => True
  | o :: os, a :: as_ => sv_answer s o a ∧ match sv_step s o with Some s1 => sv_answers s1 os as_ | None => False end
  | _, _ => False
  end.

Definition sv_rel (o : option (smap V)) (v : sview) : Prop :=
  match v with
  | Holds s => ∃ m, o = Some m ∧ sm_wf kmod m ∧ sm_abs m = s
  | MovedFrom => is_Some o
  | Gone => True
  end.

Lemma rel_holds w s i m : Forall2 sv_rel w s → s !! i = Some (Holds m) → ∃ t, sw_get w i = Some t ∧ sm_wf kmod t ∧ sm_abs t = m.
Proof.
  intros Hr Hi. destruct (Forall2_lookup_r _ _ _ _ _ Hr Hi) as (o & Ho & t & -> & Hwf & Habs). exists t. unfold sw_get. by rewrite Ho.
Qed.
Lemma rel_there w s i (v : sview) : Forall2 sv_rel w s → s !! i = Some v → v ≠ Gone → ∃ t, sw_get w i = Some t.
Proof.
  intros Hr Hi Hv. destruct (Forall2_lookup_r _ _ _ _ _ Hr Hi) as (o & Ho & Hrel). unfold sw_get. rewrite Ho. cbn.
  destruct v as [m| |]; cbn in Hrel; [destruct Hrel as (t & -> & _); eauto|destruct Hrel as [t ->]; eauto|done].
Qed.

Lemma sv_step_ok w s o s1 : Forall2 sv_rel w s → sv_step s o = Some s1 → sv_room s1 →
  ∃ w' a, sw_step kmod dflt w o = Some (w', a) ∧ sv_answer s o a ∧ Forall2 sv_rel w' s1.
Proof.
  intros Hr Hs Hroom. assert (0 < kmod → sv_rel (Some sm_init) (Holds ∅))%N as Hnew.
  { intros. exists sm_init. split; [done|]. split; [by apply sm_wf_init|done]. }
  destruct o as [|i o|i|i|i j|i j|i]; cbn [sw_step sv_step sv_answer] in *.
  - simplify_eq. eexists _, _. split; [done|]. split; [done|]. apply Forall2_app; [done|]. constructor; [|constructor]. apply Hnew.
    apply Forall_app in Hroom as [_ Hroom]. apply Forall_cons in Hroom as [Hroom _]. cbn in Hroom. lia.
  - destruct (s !! i) as [[m| |]|] eqn:Hi; try done. simplify_eq. destruct (rel_holds _ _ _ _ Hr Hi) as (t & -> & Hwf & <-). cbn [mbind option_bind].
    destruct (sm_step_refines kmod dflt t o Hwf) as (t' & a & -> & Hwf' & Habs & Ha).
    { pose proof (list_lookup_insert s i (Holds (map_after (sm_abs t) o)) ltac:(by eapply lookup_lt_Some)) as Hl.
      eapply Forall_lookup_1 in Hroom; [|exact Hl]. done. }
    cbn. eexists _, _. split; [done|]. split; [done|]. apply Forall2_insert; [done|]. by exists t'.
  - destruct (s !! i) as [[m| |]|] eqn:Hi; try done. simplify_eq. destruct (rel_holds _ _ _ _ Hr Hi) as (t & -> & Hwf & <-). cbn.
    eexists _, _. split; [done|]. split; [done|]. apply Forall2_app; [done|]. constructor; [|constructor]. by exists t.
  - destruct (s !! i) as [[m| |]|] eqn:Hi; try done. simplify_eq. destruct (rel_holds _ _ _ _ Hr Hi) as (t & -> & Hwf & <-). cbn.
    eexists _, _. split; [done|]. split; [done|]. apply Forall2_app; [apply Forall2_insert; [done|by eexists]|]. constructor; [|constructor]. by exists t.
  - destruct (s !! i) as [v|] eqn:Hi; [|done]. destruct (s !! j) as [[m| |]|] eqn:Hj; try by destruct v.
    destruct (rel_holds _ _ _ _ Hr Hj) as (t & -> & Hwf & <-).
    destruct (rel_there w s i v Hr Hi) as (ti & ->); [by destruct v|]. cbn.
    eexists _, _. split; [done|]. split; [done|]. assert (<[i:=Holds (sm_abs t)]> s = s1) as <- by (destruct v; by simplify_eq).
    apply Forall2_insert; [done|]. by exists t.
  - case_decide as Hij; [done|]. destruct (s !! i) as [v|] eqn:Hi; [|done]. destruct (s !! j) as [[m| |]|] eqn:Hj; try by destruct v.
    destruct (rel_holds _ _ _ _ Hr Hj) as (t & -> & Hwf & <-).
    destruct (rel_there w s i v Hr Hi) as (ti & ->); [by destruct v|]. cbn.
    eexists _, _. split; [done|]. split; [done|].
    assert (<[j:=MovedFrom]> (<[i:=Holds (sm_abs t)]> s) = s1) as <- by (destruct v; by simplify_eq).
    apply Forall2_insert; [|by eexists]. apply Forall2_insert; [done|]. by exists t.
  - destruct (s !! i) as [v|] eqn:Hi; [|done]. destruct (rel_there w s i v Hr Hi) as (ti & ->); [by destruct v|]. cbn.
    eexists _, _. split; [done|]. split; [done|]. assert (<[i:=Gone]> s = s1) as <- by (destruct v; by simplify_eq). by apply Forall2_insert.
Qed.

Lemma sv_run_ok os w s : Forall2 sv_rel w s → sv_valid s os → ∃ w' as_, sw_run kmod dflt w os = Some (w', as_) ∧ sv_answers s os as_.
Proof.
  revert w s. induction os as [|o os IH]; intros w s Hr Hv; [by eexists _, []|]. destruct Hv as (s1 & Hs & Hroom & Hv).
  destruct (sv_step_ok w s o s1 Hr Hs Hroom) as (w1 & a & E & Ha & Hr1). destruct (IH w1 s1 Hr1 Hv) as (w' & as_ & E' & Has).
  exists w', (a :: as_). cbn. rewrite E. cbn. rewrite E'. cbn. rewrite Hs. done.
Qed.
End spec.

(** C69, except for the use of moved-from maps.  In any program over several sparse maps that uses a moved-from map only
    to assign to it or to destroy it, and never fills a map with all keys, all answers are those of separate
    finite maps, where copies are equal and independent. *)
Theorem C69_value_semantics_partial {V : Type} (kmod : N) (dflt : V) (os : list (sw_op V)) :
  sv_valid kmod [] os → ∃ w as_, sw_run kmod dflt [] os = Some (w, as_) ∧ sv_answers [] os as_.
Proof. apply sv_run_ok. constructor. Qed.

(** Missing: a moved-from map is not empty and usable.  In every history, looking up any key that the map held when it was
    moved from is undefined, and size() still answers the old size; clear() does not help. *)
Theorem C69_moved_from_refuted {V : Type} (kmod : N) (dflt : V) (os : list (sm_op V)) (m : smap V) (as_ : list (sm_out V)) :
  (0 < kmod)%N → never_full kmod ∅ os → sm_run kmod dflt sm_init os = Some (m, as_) →
  (∀ k v, (k, v) ∈ sm_dense m → sm_contains (sm_moved m) k = None ∧ (∀ v', sm_emplace kmod (sm_clear (sm_moved m)) k v' = None)) ∧
  sm_size (sm_moved m) = N.of_nat (length (sm_dense m)).
Proof.
  intros H0 Hf Hrun.
  assert (sm_wf kmod m) as Hwf.
  { assert (∀ os (m0 m : smap V) as_, sm_wf kmod m0 → never_full kmod (sm_abs m0) os → sm_run kmod dflt m0 os = Some (m, as_) → sm_wf kmod m) as Hgen.
    { clear. intros os. induction os as [|o os IH]; intros m0 m as_ Hwf Hf Hrun; cbn in *; [by simplify_eq|].
      destruct Hf as [Hf1 Hf2]. destruct (sm_step_refines kmod dflt m0 o Hwf Hf1) as (m1 & a & E & Hwf1 & Habs & _). rewrite E in Hrun. cbn in Hrun.
      destruct (sm_run kmod dflt m1 os) as [[m2 as2]|] eqn:E2; [|done]. cbn in Hrun. simplify_eq. rewrite <-Habs in Hf2. by eapply IH. }
    eapply (Hgen os sm_init); [by apply sm_wf_init|done|done]. }
  split; [|apply (swf_size _ _ Hwf)]. intros k v Hk. apply elem_of_list_lookup in Hk as [i Hi].
  pose proof (swf_back _ _ Hwf _ _ _ Hi) as Hs. pose proof (lookup_lt_Some _ _ _ Hs) as Hlt. pose proof (swf_cap _ _ Hwf) as Hc.
  split.
  - unfold sm_contains, sm_find. cbn. by rewrite decide_True by lia.
  - intros v'. unfold sm_emplace, sm_contains, sm_find. cbn. by rewrite decide_True by lia.
Qed.

Definition move_ops : list (sw_op N) :=
  [SwNew; SwOn 0 (SmEmplace 7 70); SwOn 0 (SmEmplace 3 30); SwCopy 0; SwOn 0 (SmErase 7); SwOn 1 (SmAt 7); SwMove 1; SwOn 2 (SmAt 3);
   SwCopyAssign 1 0; SwOn 1 (SmContains 7); SwMoveAssign 0 2; SwOn 0 SmSize; SwDestroy 2; SwOn 1 (SmEmplace 7 1); SwOn 0 (SmAt 7)]%N.
Example ex_C69_valid : sv_valid 256 [] move_ops.
Proof.
  unfold move_ops. cbn [sv_valid]. repeat (eexists; split; [vm_compute; reflexivity|split; [repeat constructor|]]). done.
Qed.
Example ex_C69 : snd <$> sw_run 256 0%N [] move_ops =
  Some [SmUnit; SmBool true; SmBool true; SmUnit; SmNum 1; SmVal (Some 70); SmUnit; SmVal (Some 30); SmUnit; SmBool false; SmUnit; SmNum 2; SmUnit;
    SmBool true; SmVal (Some 70)]%N.
Proof. vm_compute. done. Qed.
(** A use of a moved-from map. *)
Example ex_C69_moved : sw_run 256 0%N [] [SwNew; SwOn 0 (SmEmplace 7 70); SwMove 0; SwOn 0 SmClear; SwOn 0 (SmEmplace 7 71)]%N = None.
Proof. vm_compute. done. Qed.
(** The hypotheses of the refutation. *)
Example ex_C69_hyp : never_full 256 ∅ [SmEmplace 7 70; SmEmplace 3 30]%N ∧
  option_map (λ r, sm_dense r.1) (sm_run 256 0%N sm_init [SmEmplace 7 70; SmEmplace 3 30]%N) = Some [(7, 70); (3, 30)]%N.
Proof. vm_compute. done. Qed.

Print Assumptions C69_value_semantics_partial.
Print Assumptions C69_moved_from_refuted.
