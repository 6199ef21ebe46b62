(** Invariant of the handle pool over all disciplined histories. *)
From Verif Require Import Base HandlePool HandleSpec.
Ltac Zify.zify_post_hook ::= Z.div_mod_to_equations.

Definition neg_tickets (ins : list (nat * Z)) : nat :=
  length (filter (λ tn, (tn.2 <= 0)%Z) ins).

Record hinv (n : nat) (s : hist) : Prop := {
  hi_cur : (cursor (hs_pool s) <= Z.of_nat (length (free_ids (hs_pool s))))%Z;
  hi_free_nd : NoDup (free_ids (hs_pool s));
  hi_free_lt : ∀ id, id ∈ free_ids (hs_pool s) → (N.to_nat id < length (gens (hs_pool s)));
  hi_tid_nd : NoDup (hs_inside s).*2;
  hi_tick : ∀ t k, (t, k) ∈ hs_inside s →
     (cursor (hs_pool s) < k <= Z.of_nat (length (free_ids (hs_pool s))))%Z;
  hi_fresh : ∃ f : nat,
     next_id (hs_pool s) = N.of_nat (length (gens (hs_pool s)) + f) ∧
     (Z.of_nat (f + neg_tickets (hs_inside s)) = Z.max 0 (- cursor (hs_pool s)))%Z;
  hi_quiet : hs_pending s = [] → hs_inside s = [] →
     cursor (hs_pool s) = Z.of_nat (length (free_ids (hs_pool s)));
  hi_iss_nd : NoDup (hs_issued s);
  hi_iss_lt : ∀ h, h ∈ hs_issued s → (h_id h < next_id (hs_pool s))%N;
  hi_iss_old : ∀ h g, h ∈ hs_issued s → gens (hs_pool s) !! N.to_nat (h_id h) = Some g → (h_gen h <= g)%N;
  hi_free_new : ∀ j id g, free_ids (hs_pool s) !! j = Some id →
     gens (hs_pool s) !! N.to_nat id = Some g →
     ((Z.of_nat j < cursor (hs_pool s))%Z ∨ (Z.of_nat j + 1)%Z ∈ (hs_inside s).*2) →
     Handle id g ∉ hs_issued s;
  hi_dead : ∀ h, h ∈ hs_dead s → h ∈ hs_issued s ∧
     ∃ g, gens (hs_pool s) !! N.to_nat (h_id h) = Some g ∧ (h_gen h < g)%N;
  hi_live : ∀ h, h ∈ hs_issued s → h ∉ hs_dead s → h ∉ hs_pending s →
     gens (hs_pool s) !! N.to_nat (h_id h) = Some (h_gen h);
  hi_pend : ∀ h, h ∈ hs_pending s → h ∈ hs_issued s ∧ h ∉ hs_dead s ∧
     (gens (hs_pool s) !! N.to_nat (h_id h) = Some (h_gen h) ∨
      (length (gens (hs_pool s)) ≤ N.to_nat (h_id h) ∧ h_gen h = 0%N));
  hi_next_le : (next_id (hs_pool s) <= N.of_nat n)%N;
  hi_gen_le : ∀ i g, gens (hs_pool s) !! i = Some g → (g <= N.of_nat n)%N;
  hi_known : ∀ i g, gens (hs_pool s) !! i = Some g → Handle (N.of_nat i) g ∈ hs_issued s ∨
     ∃ d, d ∈ hs_dead s ∧ h_id d = N.of_nat i ∧ g = (h_gen d + 1)%N;
  hi_reserved : ∀ i, length (gens (hs_pool s)) ≤ i → (N.of_nat i < next_id (hs_pool s))%N → Handle (N.of_nat i) 0 ∈ hs_issued s
}.

Lemma hinv_init : hinv 0 hist_init.
Proof.
  split; simpl; try set_solver; try lia.
  - constructor.
  - constructor.
  - exists 0. done.
  - constructor.
Qed.

Lemma hinv_mono n n' s : n ≤ n' → hinv n s → hinv n' s.
Proof.
  intros Hn []. split; try done; [lia|].
  intros i g Hi. specialize (hi_gen_le0 _ _ Hi). lia.
Qed.

Lemma inc32_small x : (x + 1 < w32)%N → inc32 x = (x + 1)%N.
Proof. intros. unfold inc32. by apply N.mod_small. Qed.

Lemma lookup_total_lt {A} (l : list A) i : i < length l → ∃ x, l !! i = Some x.
Proof. intros H. by apply lookup_lt_is_Some_2. Qed.

Lemma hinv_create n p iss dd p' h :
  hinv n (Hist p iss dd [] []) → below_wrap (S n) →
  pool_create p = (p', Ok h) → hinv (S n) (Hist p' (h :: iss) dd [] []) ∧ pool_alive p' h = true.
Proof.
  intros [] Hw Hc. simpl in *. change (N.of_nat (S n) < w32)%N in Hw.
  specialize (hi_quiet0 eq_refl eq_refl).
  destruct hi_fresh0 as (f & Hf1 & Hf2). unfold neg_tickets in Hf2; simpl in Hf2.
  assert (f = 0) as -> by lia. rewrite Nat.add_0_r in Hf1.
  unfold pool_create in Hc.
  destruct (last (free_ids p)) as [id|] eqn:El.
  - pose proof (last_snoc_inv _ _ El) as Efr.
    set (fr := pop_back (free_ids p)) in *.
    destruct (gens p !! N.to_nat id) as [g|] eqn:Eg; [|done].
    injection Hc as <- <-.
    assert (length (free_ids p) = length fr + 1) as Hlen by (rewrite Efr, app_length; simpl; lia).
    assert (NoDup (fr ++ [id])) as Hnd by (by rewrite <- Efr).
    assert (Handle id g ∉ iss) as Hnew.
    { apply (hi_free_new0 (length fr) id g); [|done|left; lia].
      rewrite Efr. rewrite lookup_app_r, Nat.sub_diag; [done|lia]. }
    apply NoDup_app in Hnd as (Hnd1 & Hnd2 & _).
    split; [split; simpl|].
    + lia.
    + done.
    + intros i Hi. apply hi_free_lt0. rewrite Efr. set_solver.
    + constructor.
    + set_solver.
    + exists 0. unfold neg_tickets. simpl. split; [rewrite Nat.add_0_r; done|lia].
    + done.
    + by constructor.
    + intros h [->|Hh]%elem_of_cons; simpl; [|by apply hi_iss_lt0].
      apply lookup_lt_Some in Eg. lia.
    + intros h g' [->|Hh]%elem_of_cons; simpl.
      * rewrite Eg. intros [= ->]. lia.
      * by apply hi_iss_old0.
    + intros j i g' Hj Hg' [Hcur|Hcur]; [|set_solver].
      intros [[= -> ->]|Hin]%elem_of_cons.
      * apply (Hnd2 id); [|set_solver]. by eapply elem_of_list_lookup_2.
      * eapply (hi_free_new0 j i g'); [|done| |done].
        -- rewrite Efr. rewrite lookup_app_l; [done|]. by eapply lookup_lt_Some.
        -- left. lia.
    + intros h Hh. destruct (hi_dead0 h Hh) as [? ?]. split; [set_solver|done].
    + intros h [->|Hh]%elem_of_cons Hd _; [done|]. apply hi_live0; set_solver.
    + set_solver.
    + lia.
    + intros i g' Hi. specialize (hi_gen_le0 _ _ Hi). lia.
    + intros i g' Hi. destruct (hi_known0 _ _ Hi) as [?|?]; [left; by right|by right].
    + intros i Hi Hi'. right. by apply hi_reserved0.
    + unfold pool_alive. simpl. rewrite Eg. by rewrite bool_decide_true.
  - injection Hc as <- <-.
    apply last_None in El. rewrite El in *. simpl in *.
    rewrite inc32_small by lia.
    assert (∀ h, h ∈ iss → N.to_nat (h_id h) < length (gens p)) as Hlt2.
    { intros h Hh. specialize (hi_iss_lt0 _ Hh). lia. }
    split; [split; simpl|].
    + lia.
    + done.
    + set_solver.
    + constructor.
    + set_solver.
    + exists 0. unfold neg_tickets. simpl. rewrite app_length. simpl. split; lia.
    + done.
    + constructor; [|done]. intros Hh%Hlt2. simpl in Hh. lia.
    + intros h [->|Hh]%elem_of_cons; simpl; [lia|]. specialize (hi_iss_lt0 _ Hh). lia.
    + intros h g' [->|Hh]%elem_of_cons; simpl; [lia|]. 
      intros Hg. rewrite lookup_app_l in Hg by (by apply Hlt2). eauto.
    + intros j i g' Hj. by rewrite lookup_nil in Hj.
    + intros h Hh. destruct (hi_dead0 h Hh) as [Hi (g & Hg & ?)]. split; [set_solver|].
      exists g. split; [|done]. by apply lookup_app_l_Some.
    + intros h [->|Hh]%elem_of_cons Hd _; simpl.
      * rewrite lookup_app_r by lia. rewrite Hf1. by rewrite Nat2N.id, Nat.sub_diag.
      * apply lookup_app_l_Some. apply hi_live0; set_solver.
    + set_solver.
    + lia.
    + intros i g' [Hi|[_ Hi]]%lookup_app_Some.
      * specialize (hi_gen_le0 _ _ Hi). lia.
      * apply elem_of_list_lookup_2 in Hi. apply elem_of_list_singleton in Hi. lia.
    + intros i g' [Hi|[Hl Hi]]%lookup_app_Some.
      * destruct (hi_known0 _ _ Hi) as [?|?]; [left; by right|by right].
      * left. apply list_lookup_singleton_Some in Hi as [E <-]. replace (N.of_nat i) with (next_id p) by lia. left.
    + intros i Hi Hi'. rewrite app_length in Hi. simpl in Hi. lia.
    + unfold pool_alive. simpl. rewrite lookup_app_r by lia. rewrite Hf1, Nat2N.id, Nat.sub_diag. simpl.
      done.
Qed.

Lemma create_no_ub n s p' : hinv n s → pool_create (hs_pool s) ≠ (p', UB).
Proof.
  intros [] Hc. unfold pool_create in Hc.
  destruct (last (free_ids (hs_pool s))) as [id|] eqn:El; [|done].
  destruct (gens (hs_pool s) !! N.to_nat id) eqn:Eg; [done|].
  apply lookup_ge_None in Eg.
  assert (id ∈ free_ids (hs_pool s)) as Hin%hi_free_lt0; [|lia].
  rewrite (last_snoc_inv _ _ El). set_solver.
Qed.

Lemma finish_no_ub n s t k p' : hinv n s → (t, k) ∈ hs_inside s →
  reserve_finish k (hs_pool s) ≠ (p', UB).
Proof.
  intros [] Hin Hc. unfold reserve_finish in Hc.
  destruct (decide (0 < k)%Z); [|done].
  destruct (hi_tick0 _ _ Hin).
  destruct (lookup_total_lt (free_ids (hs_pool s)) (Z.to_nat (k - 1))) as [id Hid]; [lia|].
  rewrite Hid in Hc.
  destruct (gens (hs_pool s) !! N.to_nat id) eqn:Eg; [done|].
  apply lookup_ge_None in Eg. apply elem_of_list_lookup_2, hi_free_lt0 in Hid. lia.
Qed.

Lemma hinv_recycle n p iss dd h :
  hinv n (Hist p iss dd [] []) → below_wrap (S n) → h ∈ iss →
  hinv (S n) (Hist (pool_recycle p h) iss (h :: dd) [] []).
Proof.
  intros Hinv Hw Hh. change (N.of_nat (S n) < w32)%N in Hw. pose proof Hinv as [].
  unfold pool_recycle, pool_alive. simpl in *.
  specialize (hi_quiet0 eq_refl eq_refl).
  destruct hi_fresh0 as (f & Hf1 & Hf2). unfold neg_tickets in Hf2; simpl in Hf2.
  assert (f = 0) as -> by lia. rewrite Nat.add_0_r in Hf1.
  assert (N.to_nat (h_id h) < length (gens p)) as Hlt by (specialize (hi_iss_lt0 _ Hh); lia).
  destruct (lookup_total_lt _ _ Hlt) as [g Hg]. rewrite Hg.
  destruct (bool_decide_reflect (g = h_gen h)) as [->|Hne].
  - assert (h_id h ∉ free_ids p) as Hnf.
    { intros [j Hj]%elem_of_list_lookup. eapply hi_free_new0; [done|done| |].
      - left. apply lookup_lt_Some in Hj. lia.
      - by destruct h. }
    assert ((h_gen h <= N.of_nat n)%N) as Hgn by eauto.
    assert (inc32 (h_gen h) = (h_gen h + 1)%N) as Hinc by (apply inc32_small; lia).
    assert (∀ i g', alter inc32 (N.to_nat (h_id h)) (gens p) !! i = Some g' →
       (i = N.to_nat (h_id h) ∧ g' = (h_gen h + 1)%N) ∨ (i ≠ N.to_nat (h_id h) ∧ gens p !! i = Some g')) as Hal.
    { intros i g' Hi. destruct (decide (i = N.to_nat (h_id h))) as [->|].
      - left. rewrite list_lookup_alter, Hg in Hi. simpl in Hi. split; [done|]. congruence.
      - right. rewrite list_lookup_alter_ne in Hi by done. done. }
    split; simpl.
    + rewrite app_length; simpl; lia.
    + apply NoDup_app. split; [done|]. split; [set_solver|]. apply NoDup_singleton.
    + intros id. rewrite alter_length. intros [Hi|Hi]%elem_of_app; [by apply hi_free_lt0|].
      apply elem_of_list_singleton in Hi as ->. lia.
    + constructor.
    + set_solver.
    + exists 0. rewrite alter_length. unfold neg_tickets; simpl. split; lia.
    + rewrite app_length; simpl; lia.
    + done.
    + done.
    + intros h' g' Hh' [[Hi ->]|[_ Hi]]%Hal; [|by eauto].
      assert (h_gen h' ≤ h_gen h)%N; [|lia]. eapply hi_iss_old0; [done|]. by rewrite Hi.
    + intros j id g' Hj Hg' _ Hin.
      apply Hal in Hg' as [[Hi ->]|[Hi Hg']].
      * assert (h_gen h + 1 ≤ h_gen h)%N; [|lia].
        eapply (hi_iss_old0 (Handle id (h_gen h + 1))); [done|]. simpl. by rewrite Hi.
      * apply lookup_app_Some in Hj as [Hj|[_ Hj]].
        -- eapply hi_free_new0; [done|done| |done]. left. apply lookup_lt_Some in Hj. lia.
        -- apply elem_of_list_lookup_2, elem_of_list_singleton in Hj. by subst.
    + intros h' [->|Hd]%elem_of_cons.
      * split; [done|]. exists (h_gen h + 1)%N. rewrite list_lookup_alter, Hg. simpl. split; [by rewrite Hinc|lia].
      * destruct (hi_dead0 _ Hd) as [? (g' & Hg' & Hlt')]. split; [done|].
        destruct (decide (h_id h' = h_id h)) as [E|E].
        -- exists (h_gen h + 1)%N. rewrite E, list_lookup_alter, Hg. rewrite E, Hg in Hg'.
           injection Hg' as <-. simpl. split; [by rewrite Hinc|lia].
        -- exists g'. rewrite list_lookup_alter_ne by lia. done.
    + intros h' Hi' [Hne Hd]%not_elem_of_cons _.
      pose proof (hi_live0 h' Hi' Hd (not_elem_of_nil _)) as Hl.
      destruct (decide (h_id h' = h_id h)) as [E|E].
      * exfalso. apply Hne. rewrite E, Hg in Hl. injection Hl as Hl. destruct h, h'; simpl in *; congruence.
      * rewrite list_lookup_alter_ne by lia. done.
    + set_solver.
    + lia.
    + intros i g' [[Hi ->]|[_ Hi]]%Hal; [lia|]. specialize (hi_gen_le0 _ _ Hi). lia.
    + intros i g' [[-> ->]|[_ Hi]]%Hal; [right; exists h; split; [left|split; [lia|done]]|].
      destruct (hi_known0 _ _ Hi) as [?|(d & ? & ?)]; [by left|right; exists d; split; [by right|done]].
    + intros i. rewrite alter_length. apply hi_reserved0.
  - apply (hinv_mono n (S n)); [lia|].
    split; simpl; try done.
    + exists 0. rewrite Nat.add_0_r. done.
    + intros h' [->|Hd]%elem_of_cons; [|by eauto]. split; [done|]. exists g. split; [done|].
      pose proof (hi_iss_old0 h g Hh Hg). lia.
    + intros h' Hi' [? Hd]%not_elem_of_cons Hp. eauto.
    + set_solver.
    + intros i g' Hi. destruct (hi_known0 _ _ Hi) as [?|(d & ? & ?)]; [by left|right; exists d; split; [by right|done]].
Qed.

Lemma hinv_enter n p iss dd pend ins t k p' :
  hinv n (Hist p iss dd pend ins) → t ∉ ins.*1 → reserve_ticket p = (k, p') →
  hinv (S n) (Hist p' iss dd pend ((t, k) :: ins)).
Proof.
  intros [] Ht [= <- <-]. simpl in *.
  split; csimpl; try done.
  - lia.
  - constructor; [|done]. intros ([t' k] & Ek & Hin)%elem_of_list_fmap.
    apply hi_tick0 in Hin. simpl in Ek. lia.
  - intros t' k [[= -> ->]|Hin]%elem_of_cons; [lia|]. apply hi_tick0 in Hin. lia.
  - destruct hi_fresh0 as (f & Hf1 & Hf2). exists f. split; [done|].
    unfold neg_tickets in *. rewrite filter_cons. simpl. case_decide; simpl; lia.
  - intros j id g Hj Hg Hc. eapply hi_free_new0; [done|done|].
    destruct Hc as [Hc|[Hc|Hc]%elem_of_cons]; [left; lia|left; lia|by right].
  - lia.
  - intros i g Hi. specialize (hi_gen_le0 _ _ Hi). lia.
Qed.

Lemma neg_tickets_app ins1 ins2 : neg_tickets (ins1 ++ ins2) = neg_tickets ins1 + neg_tickets ins2.
Proof. unfold neg_tickets. by rewrite filter_app, app_length. Qed.

Lemma hinv_leave n p iss dd pend ins1 ins2 t k p' h :
  hinv n (Hist p iss dd pend (ins1 ++ (t, k) :: ins2)) → below_wrap (S n) →
  reserve_finish k p = (p', Ok h) →
  hinv (S n) (Hist p' (h :: iss) dd (h :: pend) (ins1 ++ ins2)).
Proof.
  intros [] Hw Hc. simpl in *. change (N.of_nat (S n) < w32)%N in Hw.
  assert ((t, k) ∈ ins1 ++ (t, k) :: ins2) as Hin by set_solver.
  destruct (hi_tick0 _ _ Hin) as [Hk1 Hk2].
  rewrite fmap_app, fmap_cons in hi_tid_nd0. simpl in hi_tid_nd0.
  assert (k ∉ (ins1 ++ ins2).*2 ∧ NoDup (ins1 ++ ins2).*2) as [Hkn Hnd].
  { rewrite fmap_app. apply NoDup_app in hi_tid_nd0 as (N1 & N2 & N3).
    apply NoDup_cons in N3 as [N3 N4]. split.
    - intros [Hx|Hx]%elem_of_app; [|done]. apply (N2 k); [done|set_solver].
    - apply NoDup_app. split; [done|]. split; [|done]. intros x Hx Hy. apply (N2 x); set_solver. }
  destruct hi_fresh0 as (f & Hf1 & Hf2).
  rewrite neg_tickets_app in Hf2.
  assert (neg_tickets ((t, k) :: ins2) = (if decide (k <= 0)%Z then 1 else 0) + neg_tickets ins2) as Hneg.
  { unfold neg_tickets. rewrite filter_cons. simpl. by case_decide. }
  rewrite Hneg in Hf2.
  assert (∀ j id g, free_ids p !! j = Some id → gens p !! N.to_nat id = Some g →
     ((Z.of_nat j < cursor p)%Z ∨ (Z.of_nat j + 1)%Z ∈ (ins1 ++ ins2).*2) →
     Handle id g ∉ iss ∧ (Z.of_nat j + 1 ≠ k)%Z) as Hfn.
  { intros j id g Hj Hg HH. split.
    - eapply hi_free_new0; [done|done|]. destruct HH as [?|HH]; [by left|right].
      rewrite fmap_app, fmap_cons in *. set_solver.
    - destruct HH as [?|HH]; [lia|]. intros <-. done. }
  unfold reserve_finish in Hc. destruct (decide (0 < k)%Z) as [Hpos|Hneg'].
  - destruct (free_ids p !! Z.to_nat (k - 1)) as [id|] eqn:Eid; [|done].
    destruct (gens p !! N.to_nat id) as [g|] eqn:Eg; [|done].
    injection Hc as <- <-. rewrite decide_False in Hf2 by lia.
    assert (Handle id g ∉ iss) as Hnew.
    { eapply hi_free_new0; [done|done|]. right. rewrite fmap_app, fmap_cons. simpl.
      replace (Z.of_nat (Z.to_nat (k - 1)) + 1)%Z with k by lia. set_solver. }
    assert (Handle id g ∉ dd) as Hnd'.
    { intros Hd. by apply hi_dead0 in Hd as [? _]. }
    split; simpl; try done.
    + intros t' k' Hin'. apply (hi_tick0 t'). set_solver.
    + exists f. split; [done|]. rewrite neg_tickets_app. lia.
    + by constructor.
    + intros h [->|Hh]%elem_of_cons; [|by eauto]. simpl. apply lookup_lt_Some in Eg. lia.
    + intros h g' [->|Hh]%elem_of_cons; [|by eauto]. simpl. rewrite Eg. intros [= ->]. lia.
    + intros j id' g' Hj Hg' HH. destruct (Hfn _ _ _ Hj Hg' HH) as [Hf3 Hf4].
      intros [[= -> ->]|?]%elem_of_cons; [|done].
      assert (j = Z.to_nat (k - 1)); [|lia]. exact (NoDup_lookup _ _ _ _ hi_free_nd0 Hj Eid).
    + intros h Hh. destruct (hi_dead0 _ Hh) as [? ?]. split; [set_solver|done].
    + intros h [->|Hh]%elem_of_cons Hd [Hp1 Hp2]%not_elem_of_cons; [done|]. by eauto.
    + intros h [->|Hh]%elem_of_cons.
      * split; [set_solver|]. split; [done|]. by left.
      * destruct (hi_pend0 _ Hh) as (? & ? & ?). split; [set_solver|]. done.
    + lia.
    + intros i g' Hi. specialize (hi_gen_le0 _ _ Hi). lia.
    + intros i g' Hi. destruct (hi_known0 _ _ Hi) as [?|?]; [left; by right|by right].
    + intros i Hi Hi'. right. by apply hi_reserved0.
  - injection Hc as <- <-. rewrite decide_True in Hf2 by lia.
    assert (Handle (next_id p) 0 ∉ iss) as Hnew.
    { intros Hh%hi_iss_lt0. simpl in Hh. lia. }
    rewrite inc32_small by lia.
    split; simpl; try done.
    + intros t' k' Hin'. apply (hi_tick0 t'). set_solver.
    + exists (S f). split; [lia|]. rewrite neg_tickets_app. lia.
    + by constructor.
    + intros h [->|Hh]%elem_of_cons; [simpl; lia|]. specialize (hi_iss_lt0 _ Hh). lia.
    + intros h g' [->|Hh]%elem_of_cons; [simpl; lia|]. by eauto.
    + intros j id' g' Hj Hg' HH. destruct (Hfn _ _ _ Hj Hg' HH) as [Hf3 Hf4].
      intros [[= -> ->]|?]%elem_of_cons; [|done].
      apply elem_of_list_lookup_2, hi_free_lt0 in Hj. lia.
    + intros h Hh. destruct (hi_dead0 _ Hh) as [? ?]. split; [set_solver|done].
    + intros h [->|Hh]%elem_of_cons Hd [Hp1 Hp2]%not_elem_of_cons; [done|]. by eauto.
    + intros h [->|Hh]%elem_of_cons.
      * split; [set_solver|]. split; [|right; simpl; split; [lia|done]].
        intros Hd. by apply hi_dead0 in Hd as [? _].
      * destruct (hi_pend0 _ Hh) as (? & ? & ?). split; [set_solver|]. done.
    + lia.
    + intros i g' Hi. specialize (hi_gen_le0 _ _ Hi). lia.
    + intros i g' Hi. destruct (hi_known0 _ _ Hi) as [?|?]; [left; by right|by right].
    + intros i Hi Hi'. destruct (decide (N.of_nat i = next_id p)) as [->|]; [left|]. right. apply hi_reserved0; [done|lia].
Qed.

Lemma hinv_flush n p iss dd pend :
  hinv n (Hist p iss dd pend []) → hinv (S n) (Hist (pool_flush p) iss dd [] []).
Proof.
  intros []. simpl in *. unfold pool_flush. simpl.
  destruct hi_fresh0 as (f & Hf1 & Hf2). unfold neg_tickets in Hf2; simpl in Hf2.
  set (c := cursor p) in *.
  assert (Z.to_nat (- c) = f) as Ef by lia. rewrite Ef.
  assert (length (take (Z.to_nat (Z.max 0 c)) (free_ids p)) = Z.to_nat (Z.max 0 c)) as Hlen.
  { rewrite take_length. lia. }
  assert (∀ i g, (gens p ++ replicate f 0%N) !! i = Some g →
     gens p !! i = Some g ∨ (length (gens p) ≤ i ∧ g = 0%N)) as Hg.
  { intros i g [Hi|[? Hi]]%lookup_app_Some; [by left|right].
    apply lookup_replicate in Hi as [-> _]. done. }
  assert (∀ i, length (gens p) ≤ i → i < length (gens p) + f →
    (gens p ++ replicate f 0%N) !! i = Some 0%N) as Hg0.
  { intros i Hi1 Hi2. rewrite lookup_app_r by done. apply lookup_replicate. split; [done|lia]. }
  split; simpl.
  - rewrite Hlen. lia.
  - rewrite <- (take_drop (Z.to_nat (Z.max 0 c)) (free_ids p)) in hi_free_nd0.
    by apply NoDup_app in hi_free_nd0 as [? _].
  - intros id Hid. rewrite app_length.
    assert (id ∈ free_ids p) as Hid'%hi_free_lt0; [|lia].
    rewrite <- (take_drop (Z.to_nat (Z.max 0 c)) (free_ids p)). set_solver.
  - constructor.
  - set_solver.
  - exists 0. rewrite app_length, replicate_length. unfold neg_tickets; simpl. split; lia.
  - rewrite Hlen. lia.
  - done.
  - done.
  - intros h g Hh [Hi|[Hi ->]]%Hg; [by eauto|].
    destruct (decide (h ∈ pend)) as [Hp|Hp].
    + destruct (hi_pend0 _ Hp) as (_ & _ & [Hl|[_ ->]]); [|lia].
      apply lookup_lt_Some in Hl. lia.
    + destruct (decide (h ∈ dd)) as [Hd|Hd].
      * destruct (hi_dead0 _ Hd) as (_ & g & Hl & _). apply lookup_lt_Some in Hl. lia.
      * pose proof (hi_live0 _ Hh Hd Hp) as Hl. apply lookup_lt_Some in Hl. lia.
  - intros j id g Hj Hgj HH.
    apply lookup_take_Some in Hj as [Hj Hj'].
    destruct (Hg _ _ Hgj) as [Hi|[Hi _]].
    + eapply hi_free_new0; [done|done|]. left. lia.
    + apply elem_of_list_lookup_2, hi_free_lt0 in Hj. lia.
  - intros h Hh. destruct (hi_dead0 _ Hh) as [? (g & ? & ?)]. split; [done|].
    exists g. split; [|done]. by apply lookup_app_l_Some.
  - intros h Hh Hd _. destruct (decide (h ∈ pend)) as [Hp|Hp].
    + destruct (hi_pend0 _ Hp) as (_ & _ & [Hl|[Hl ->]]).
      * by apply lookup_app_l_Some.
      * apply Hg0; [done|]. specialize (hi_iss_lt0 _ Hh). lia.
    + apply lookup_app_l_Some. by eauto.
  - set_solver.
  - lia.
  - intros i g [Hi|[_ ->]]%Hg; [|lia]. specialize (hi_gen_le0 _ _ Hi). lia.
  - intros i g Hi. destruct (Hg _ _ Hi) as [Hi'|[Hl ->]]; [by apply hi_known0|left].
    apply hi_reserved0; [done|]. apply lookup_lt_Some in Hi. rewrite app_length, replicate_length in Hi. lia.
  - intros i Hi Hi'. rewrite app_length in Hi. apply hi_reserved0; [lia|done].
Qed.

Lemma hinv_reach n s : hreach n s → below_wrap n → hinv n s.
Proof.
  induction 1 as [|n s s' Hr IH Hs]; intros Hw.
  - apply hinv_init.
  - assert (hinv n s) as Hi by (apply IH; unfold below_wrap in *; lia).
    destruct Hs.
    + by eapply hinv_create.
    + by apply hinv_recycle.
    + by eapply hinv_enter.
    + by eapply hinv_leave.
    + by eapply hinv_flush.
Qed.
