(** C43: type ids are stable and unique; C46: type names are recovered exactly. *)
From Verif Require Import Base Bits HashTable HashTableProofs HashTableMap PropHash TypeRegistry.
Ltac Zify.zify_post_hook ::= Z.div_mod_to_equations.

(** Specification of ids: the position of the name among the distinct names in order of first
    request. *)
Definition first_seen (seen : list str) (x : str) : list str :=
  if decide (x ∈ seen) then seen else seen ++ [x].
Definition index_of (x : str) (seen : list str) : option nat := fst <$> list_find (λ y, y = x) seen.

Fixpoint ids_spec (seen : list str) (names : list str) : list (option nat) :=
  match names with
  | [] => []
  | x :: names => index_of x (first_seen seen x) :: ids_spec (first_seen seen x) names
  end.

Lemma index_of_lt x seen i : index_of x seen = Some i → i < length seen.
Proof.
  unfold index_of. intros H. destruct (list_find _ _) as [[j y]|] eqn:E; [|done]. injection H as <-.
  apply list_find_Some in E as (Hl & _). by eapply lookup_lt_Some.
Qed.

Lemma index_of_app_l x seen y : x ∈ seen → index_of x (seen ++ [y]) = index_of x seen.
Proof.
  intros Hx. unfold index_of.
  destruct (list_find_elem_of (λ z, z = x) seen x Hx eq_refl) as [[j z] Hj].
  by rewrite (list_find_app_l _ _ _ _ _ Hj), Hj.
Qed.

Lemma index_of_app_r x seen : x ∉ seen → index_of x (seen ++ [x]) = Some (length seen).
Proof.
  intros Hx. unfold index_of. rewrite list_find_app_r.
  - cbn. rewrite decide_True by done. cbn. try (f_equal; lia); done.
  - apply list_find_None. apply Forall_forall. intros z Hz ->. done.
Qed.

Definition tr_ok (hsh : str → N) (s : tyreg) (seen : list str) : Prop :=
  ht_wf hsh (tr_map s) ∧
  (∀ x, ht_abs (tr_map s) !! x = N.of_nat <$> index_of x seen) ∧
  ((N.of_nat (length seen) < id_mod)%N → tr_next s = N.of_nat (length seen)).

Lemma index_of_None x seen : index_of x seen = None ↔ x ∉ seen.
Proof.
  unfold index_of. rewrite fmap_None, list_find_None, Forall_forall. naive_solver.
Qed.

Lemma tr_id_ok hsh s seen x :
  tr_ok hsh s seen → (N.of_nat (length (first_seen seen x)) <= id_mod)%N →
  ∃ s' i, tr_id hsh s x = Some (s', N.of_nat i) ∧ tr_ok hsh s' (first_seen seen x) ∧
    index_of x (first_seen seen x) = Some i.
Proof.
  intros (Hwf & Habs & Hn) Hlen. unfold tr_id.
  destruct (emplace_spec hsh (tr_map s) x (tr_next s) Hwf) as (t' & j & -> & Hwf' & Habs' & Hf).
  cbn [mbind option_bind fst snd]. rewrite Habs in *. unfold first_seen in *.
  destruct (index_of x seen) as [i|] eqn:E.
  - assert (x ∈ seen) as Hin.
    { destruct (decide (x ∈ seen)) as [|Hno]; [done|]. apply index_of_None in Hno. by rewrite Hno in E. }
    rewrite decide_True in * by done. cbn in Habs'.
    rewrite (deref_find hsh t' x (N.of_nat i) j Hwf' Hf) by (by rewrite Habs', Habs, E).
    cbn. eexists _, i. split; [done|]. split; [|done].
    split; [done|]. cbn [tr_map tr_next]. split; [by rewrite Habs'|done].
  - pose proof (proj1 (index_of_None x seen) E) as Hin. rewrite decide_False in * by done.
    rewrite app_length in *. cbn [length] in *. cbn in Habs'.
    rewrite Hn in * by lia.
    rewrite (deref_find hsh t' x (N.of_nat (length seen)) j Hwf' Hf) by (by rewrite Habs', lookup_insert).
    cbn [mbind option_bind fst snd fmap option_fmap option_map].
    rewrite bool_decide_eq_true_2 by done.
    eexists _, (length seen). split; [done|]. split; [|by apply index_of_app_r].
    split; [done|]. split; cbn [tr_map tr_next].
    + intros y. rewrite Habs'. destruct (decide (y = x)) as [->|Hne].
      * by rewrite lookup_insert, index_of_app_r.
      * rewrite lookup_insert_ne by done. rewrite Habs.
        destruct (decide (y ∈ seen)) as [Hy|Hy]; [by rewrite index_of_app_l|].
        rewrite (proj2 (index_of_None y seen) Hy).
        rewrite (proj2 (index_of_None y (seen ++ [x]))); [done|].
        rewrite elem_of_app, elem_of_list_singleton. naive_solver.
    + rewrite app_length. cbn [length]. intros. rewrite N.mod_small; lia.
Qed.

(** All distinct names seen after a request list. *)
Definition all_seen (seen names : list str) : list str := foldl first_seen seen names.

Lemma first_seen_le seen x : length seen ≤ length (first_seen seen x).
Proof. unfold first_seen. case_decide; rewrite ?app_length; lia. Qed.
Lemma all_seen_le names seen : length seen ≤ length (all_seen seen names).
Proof.
  revert seen. induction names as [|x names IH]; intros seen; [done|]. cbn.
  etrans; [apply (first_seen_le seen x)|]. apply IH.
Qed.

Lemma tr_run_ok hsh names s seen :
  tr_ok hsh s seen → (N.of_nat (length (all_seen seen names)) <= id_mod)%N →
  ∃ s' ids, tr_run hsh s names = Some (s', N.of_nat <$> ids) ∧ ids_spec seen names = Some <$> ids.
Proof.
  revert s seen. induction names as [|x names IH]; intros s seen Hok Hlen.
  - exists s, []. done.
  - change (all_seen seen (x :: names)) with (all_seen (first_seen seen x) names) in Hlen.
    pose proof (all_seen_le names (first_seen seen x)).
    destruct (tr_id_ok hsh s seen x Hok) as (s1 & i & Hid & Hok1 & Hi); [lia|].
    destruct (IH s1 (first_seen seen x) Hok1 Hlen) as (s' & ids & Hr & Hs).
    exists s', (i :: ids). cbn [tr_run ids_spec]. rewrite Hid. cbn [mbind option_bind fst snd].
    rewrite Hr. cbn. rewrite Hi, Hs. done.
Qed.

Lemma tr_ok_init hsh : tr_ok hsh tr_init [].
Proof.
  destruct (empty_wf (K := str) (V := N) hsh 16) as [Hwf Habs]; [by exists 4%N|].
  split; [done|]. split; [|done]. intros x. cbn [tr_map tr_init].
  change (ht_abs ht_init) with (ht_abs (ht_make (K := str) (V := N) 16)). by rewrite Habs.
Qed.

(** C43.  For every hash of names and every sequence of requests naming at most 2^32 distinct types,
    every request succeeds and is answered with the number of distinct names first requested before
    it: the ids are consecutive from zero. *)
Theorem C43_ids_are_first_seen_positions (hsh : str → N) (names : list str) :
  (N.of_nat (length (all_seen [] names)) <= 2 ^ 32)%N →
  ∃ s ids, tr_run hsh tr_init names = Some (s, N.of_nat <$> ids) ∧ ids_spec [] names = Some <$> ids.
Proof. exact (tr_run_ok hsh names tr_init [] (tr_ok_init hsh)). Qed.

(** Two requests get the same id exactly when they name the same type. *)
Lemma first_seen_elem seen x : x ∈ first_seen seen x.
Proof. unfold first_seen. case_decide; [done|]. apply elem_of_app. right. by left. Qed.
Lemma first_seen_mono seen x y : y ∈ seen → y ∈ first_seen seen x.
Proof. unfold first_seen. case_decide; [done|]. intros. apply elem_of_app. by left. Qed.

Lemma index_of_inj x y seen i : index_of x seen = Some i → index_of y seen = Some i → x = y.
Proof.
  unfold index_of. intros Hx Hy.
  destruct (list_find (λ z, z = x) seen) as [[a u]|] eqn:Ex; [|done].
  destruct (list_find (λ z, z = y) seen) as [[b w]|] eqn:Ey; [|done].
  cbn in Hx, Hy. simplify_eq.
  apply list_find_Some in Ex as (H1 & -> & _). apply list_find_Some in Ey as (H2 & -> & _). by simplify_eq.
Qed.

Lemma all_seen_index names seen x : x ∈ seen → index_of x (all_seen seen names) = index_of x seen.
Proof.
  revert seen. induction names as [|y names IH]; intros seen Hx; [done|].
  change (all_seen seen (y :: names)) with (all_seen (first_seen seen y) names). rewrite IH by (by apply first_seen_mono).
  unfold first_seen. case_decide; [done|]. by rewrite index_of_app_l.
Qed.

Lemma ids_spec_final names seen i x :
  names !! i = Some x → ids_spec seen names !! i = Some (index_of x (all_seen seen names)).
Proof.
  revert seen i. induction names as [|y names IH]; intros seen [|i] Hi; cbn [lookup list_lookup] in Hi |- *; try done.
  - injection Hi as ->. cbn [ids_spec]. cbn [lookup list_lookup]. f_equal.
    change (all_seen seen (x :: names)) with (all_seen (first_seen seen x) names).
    rewrite all_seen_index; [done|]. apply first_seen_elem.
  - change (all_seen seen (y :: names)) with (all_seen (first_seen seen y) names).
    cbn [ids_spec lookup list_lookup]. by apply IH.
Qed.

Theorem C43_same_id_iff_same_name (hsh : str → N) (names : list str) s ids i j x y a b :
  (N.of_nat (length (all_seen [] names)) <= 2 ^ 32)%N →
  tr_run hsh tr_init names = Some (s, ids) →
  names !! i = Some x → names !! j = Some y → ids !! i = Some a → ids !! j = Some b →
  (a = b ↔ x = y).
Proof.
  intros Hl Hr Hx Hy Ha Hb.
  destruct (C43_ids_are_first_seen_positions hsh names Hl) as (s' & ids' & Hr' & Hs).
  rewrite Hr in Hr'. simplify_eq.
  apply list_lookup_fmap_Some in Ha as (a' & Ha & ->).
  apply list_lookup_fmap_Some in Hb as (b' & Hb & ->).
  pose proof (ids_spec_final names [] i x Hx) as Ei. rewrite Hs, list_lookup_fmap, Ha in Ei.
  pose proof (ids_spec_final names [] j y Hy) as Ej. rewrite Hs, list_lookup_fmap, Hb in Ej.
  cbn in Ei, Ej. injection Ei as Ei. injection Ej as Ej. split.
  - intros E%Nat2N.inj. subst b'. eapply index_of_inj; eauto.
  - intros ->. congruence.
Qed.

Example C43_example :
  snd <$> tr_run (λ _, 7%N) tr_init [[1;2]; [3]; [1;2]; [4]; [3]; [5;5;5]; [4]]%N = Some [0; 1; 0; 2; 1; 3; 2]%N.
Proof. vm_compute. done. Qed.

(** C46.  The compiler prints [head ++ "=" ++ spaces ++ name ++ tail] where the opening delimiter does not
    occur in [head] and the tail starts with the closing delimiter and has no second one; then the name
    is recovered exactly, whatever characters it contains, if it does not begin with a space. *)
Lemma find_first_of_app c h s : c ∉ h → find_first_of c (h ++ c :: s) = Some (length h).
Proof.
  intros Hc. unfold find_first_of. rewrite list_find_app_r.
  - cbn. rewrite decide_True by done. cbn. try (f_equal; lia); done.
  - apply list_find_None, Forall_forall. intros z Hz ->. done.
Qed.

Lemma find_last_of_app c s r : c ∉ r → find_last_of c (s ++ c :: r) = Some (length s).
Proof.
  intros Hc. unfold find_last_of. rewrite reverse_app, reverse_cons, <-(assoc_L app). cbn [app].
  rewrite find_first_of_app by (by rewrite elem_of_reverse). cbn. f_equal.
  rewrite reverse_length, app_length. cbn. lia.
Qed.

Lemma find_first_not_of_app c h k s x :
  x ≠ c → find_first_not_of c (length h) (h ++ replicate k c ++ x :: s) = Some (length h + k).
Proof.
  intros Hx. unfold find_first_not_of. rewrite drop_app.
  rewrite list_find_app_r.
  - cbn. rewrite decide_True by done. cbn. rewrite replicate_length. try (f_equal; lia); done.
  - apply list_find_None, Forall_forall. intros z [-> _]%elem_of_replicate. naive_solver.
Qed.

Theorem C46_type_name_exact (pre suf space : N) (head name tail : str) (k : nat) (x : N) :
  pre ∉ head → suf ∉ tail → x ≠ space →
  type_name pre suf space (head ++ pre :: replicate k space ++ (x :: name) ++ suf :: tail) = Some (x :: name).
Proof.
  intros Hp Hs Hx. unfold type_name. rewrite find_first_of_app by done. cbn [mbind option_bind].
  replace (head ++ pre :: replicate k space ++ (x :: name) ++ suf :: tail)
    with ((head ++ [pre] ++ replicate k space ++ (x :: name)) ++ suf :: tail)
    by (by rewrite <-!(assoc_L app)).
  rewrite find_last_of_app by done. cbn [mbind option_bind].
  replace ((head ++ [pre] ++ replicate k space ++ (x :: name)) ++ suf :: tail)
    with ((head ++ [pre]) ++ replicate k space ++ x :: (name ++ suf :: tail))
    by (by rewrite <-!(assoc_L app)).
  replace (length head + 1) with (length (head ++ [pre])) by (by rewrite app_length).
  rewrite find_first_not_of_app by done. cbn [mbind option_bind].
  rewrite !app_length, !replicate_length. cbn [length].
  rewrite decide_True by lia. f_equal.
  replace (length head + 1 + k) with (length ((head ++ [pre]) ++ replicate k space))
    by (by rewrite !app_length, replicate_length).
  rewrite (assoc_L app (head ++ [pre])). rewrite drop_app.
  replace (length head + (1 + (k + S (length name))) - length ((head ++ [pre]) ++ replicate k space))
    with (length (x :: name)).
  2: { rewrite !app_length, replicate_length. cbn [length]. lia. }
  change (x :: name ++ suf :: tail) with ((x :: name) ++ suf :: tail). by rewrite take_app.
Qed.

(** Distinct types therefore have distinct names, hence (C43) distinct ids. *)
Theorem C46_type_name_injective (pre suf space : N) (head tail n1 n2 : str) (x1 x2 : N) :
  pre ∉ head → suf ∉ tail → x1 ≠ space → x2 ≠ space →
  type_name pre suf space (head ++ pre :: replicate 1 space ++ (x1 :: n1) ++ suf :: tail) =
  type_name pre suf space (head ++ pre :: replicate 1 space ++ (x2 :: n2) ++ suf :: tail) →
  x1 :: n1 = x2 :: n2.
Proof.
  intros Hp Hs H1 H2. rewrite !C46_type_name_exact by done. congruence.
Qed.

(** "f[T = a=;b; s]" with '=' = 61, ';' = 59, ' ' = 32: the name "a=;b" survives its own delimiters. *)
Example C46_example :
  type_name 61 59 32 [102;91;84;32;61;32;97;61;59;98;59;32;115;93]%N = Some [97;61;59;98]%N.
Proof. vm_compute. done. Qed.

Print Assumptions C43_ids_are_first_seen_positions.
Print Assumptions C43_same_id_iff_same_name.
Print Assumptions C46_type_name_exact.
Print Assumptions C46_type_name_injective.
