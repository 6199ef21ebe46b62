(** The size computed for a row when a component is left out. *)
From Verif Require Import Base Bits Layout PropLayout.
Ltac Zify.zify_post_hook ::= Z.div_mod_to_equations.
Local Open Scope N_scope.

(** The sizes of the types, each with the largest padding its alignment can ask for. *)
Definition roomy (cs : list ctype) : N := foldr (λ c r, ct_size c + (ct_align c - 1) + r) 0 cs.

Lemma size_None cs : get_max_size cs = None ↔ 16388 < foldl add_elements 12 cs.
Proof.
  unfold get_max_size, aligned_components_size. rewrite entity_elements. change alloc_alignment with 4. change chunk_bytes with 16384.
  case_decide; split; intros H'; try done; lia.
Qed.

Lemma add_le cs e : Forall (λ c, pow2 (ct_align c)) cs → foldl add_elements e cs <= e + roomy cs.
Proof.
  revert e. induction cs as [|c cs IH]; intros e Hv; cbn [foldl roomy foldr]; [lia|].
  apply Forall_cons in Hv as [Hc Hv]. specialize (IH (add_elements e c) Hv). pose proof (pow2_pos _ Hc). fold (roomy cs).
  assert (add_elements e c <= e + (ct_size c + (ct_align c - 1))); [|lia].
  unfold add_elements. rewrite mod_2n_pow2 by done. pose proof (N.mod_lt e (ct_align c)). lia.
Qed.

(** Components of one alignment: the padding depends on the number of components only. *)
Fixpoint padding (a p : N) (n : nat) : N :=
  match n with 0%nat => 0 | S n => p + padding a ((p + p) mod a) n end.
Lemma padding_mono a p n m : (n <= m)%nat → padding a p n <= padding a p m.
Proof.
  revert p m. induction n as [|n IH]; intros p m H; cbn [padding]; [lia|]. destruct m as [|m]; [lia|]. cbn [padding].
  specialize (IH ((p + p) mod a) m). lia.
Qed.
Lemma same_align a cs e : Forall valid_type cs → Forall (λ c, ct_align c = a) cs →
  foldl add_elements e cs = e + sizes cs + padding a (e mod a) (length cs).
Proof.
  revert e. induction cs as [|c cs IH]; intros e Hv Ha; cbn [foldl length padding]; [change (sizes []) with 0; lia|].
  apply Forall_cons in Hv as [(Hp & _ & q & Hq) Hv]. apply Forall_cons in Ha as [Hc Ha]. rewrite IH by done. rewrite sizes_cons.
  pose proof (pow2_pos _ Hp). rewrite Hc in *. unfold add_elements. rewrite Hc, mod_2n_pow2 by done. rewrite Hq.
  rewrite N.mod_add by lia. rewrite (N.add_mod e (e mod a)) by lia. rewrite N.mod_mod by lia. rewrite <- N.add_mod by lia.
  assert ((e + e) mod a = (e mod a + e mod a) mod a) as -> by (by rewrite N.add_mod by lia). lia.
Qed.
Lemma sizes_filter {A} (f : A → ctype) (P : A → Prop) `{!∀ x, Decision (P x)} cs : sizes (f <$> filter P cs) <= sizes (f <$> cs).
Proof.
  induction cs as [|c cs IH]; [done|]. rewrite filter_cons. case_decide; rewrite !fmap_cons, !sizes_cons; lia.
Qed.

(** Alignments that differ by a factor of two at most: where a later component is placed grows with where it may begin. *)
Lemma two_add g a e e' s : pow2 a → g ≠ 0 → a = g ∨ a = 2 * g → (g | e) → (g | e') → (g | s) → e <= e' →
  let f x := x + mod_2n x a + s in f e <= f e' ∧ (g | f e) ∧ e <= f e.
Proof.
  intros Hp Hg Ha [x ->] [y ->] [z ->] Hle f. subst f. cbn beta. rewrite !mod_2n_pow2 by done.
  assert (∀ k, k * g + (k * g) mod a = (if decide (a = g) then k else k + k mod 2) * g) as Hk.
  { intros k. case_decide as E.
    - subst a. rewrite N.mod_mul by done. lia.
    - destruct Ha as [?| ->]; [done|]. rewrite N.mul_mod_distr_r by lia. lia. }
  rewrite !Hk. assert (x <= y) by nia. case_decide.
  - split; [nia|]. split; [|nia]. exists (x + z). lia.
  - assert (x + x mod 2 <= y + y mod 2) by lia. split; [nia|]. split; [|nia]. exists (x + x mod 2 + z). lia.
Qed.
Lemma two_filter {A} (f : A → ctype) (P : A → Prop) `{!∀ x, Decision (P x)} g cs e e' : g ≠ 0 →
  Forall (λ c, valid_type (f c) ∧ (ct_align (f c) = g ∨ ct_align (f c) = 2 * g)) cs → (g | e) → (g | e') → e <= e' →
  foldl add_elements e (f <$> filter P cs) <= foldl add_elements e' (f <$> cs).
Proof.
  intros Hg. revert e e'. induction cs as [|c cs IH]; intros e e' Hv He He' Hle; [done|].
  apply Forall_cons in Hv as [[(Hp & _ & Hs) Ha] Hv].
  assert ((g | ct_size (f c))) as Hgs.
  { destruct Ha as [Ha|Ha]; rewrite Ha in Hs; [done|]. destruct Hs as [q Hq]. exists (q * 2). lia. }
  rewrite filter_cons. rewrite fmap_cons. cbn [foldl].
  destruct (two_add g (ct_align (f c)) e' e' (ct_size (f c))) as (_ & H1 & H2); try done.
  case_decide.
  - rewrite fmap_cons. cbn [foldl]. destruct (two_add g (ct_align (f c)) e e' (ct_size (f c))) as (H3 & H4 & _); try done.
    apply IH; done.
  - apply IH; [done|done|done|]. unfold add_elements. lia.
Qed.
