(** C81: each system is in the first batch that has room for it. *)
From Verif Require Import Base HandlePool SparseMap SparseMapProofs Access AccessProofs ParallelFor Stage StageProofs PropStage.

(** * Specification *)
Definition has_registry (args : list sysarg) : Prop := ArgRegistry ∈ args ∨ ArgConstRegistry ∈ args.
Definition has_view (args : list sysarg) : Prop := ∃ cs, ArgView cs ∈ args.
(** A system with parameters [a1] keeps a later added one with parameters [a2] out of its batch: it has the registry; or it has
    a view and the other one has the registry; or one writes what the other uses. *)
Definition excludes (a1 a2 : list sysarg) : Prop := has_registry a1 ∨ (has_view a1 ∧ has_registry a2) ∨ args_conflict a1 a2.
Notation sys_excludes s1 s2 := (excludes (sy_args s1) (sy_args s2)).

(** * Proofs *)
Lemma fresh_comp (args : list sysarg) (m : gmap N access) : ∃ c : N, m !! c = None ∧ ∀ cs, ArgView cs ∈ args → c ∉ cs.*2.
Proof.
  set (X := dom m ∪ list_to_set (args ≫= λ a, match a with ArgView cs => cs.*2 | _ => [] end) : gset N).
  exists (fresh X). pose proof (is_fresh X) as Hf. unfold X at 2 in Hf. apply not_elem_of_union in Hf as [H1 H2]. split; [by apply not_elem_of_dom|].
  intros cs Hcs Hin. apply H2, elem_of_list_to_set, elem_of_list_bind. by exists (ArgView cs).
Qed.
Lemma owns_spec s : owns sys_pat s ↔ has_registry (sy_args s).
Proof.
  destruct (sys_pat_spec s) as (_ & Hwf & Hr & W & R). destruct (fresh_comp (sy_args s) (sm_abs (ap_comp (sys_pat s)))) as (c & Hc & Hv). unfold owns, has_registry. split.
  - intros Ho. destruct (proj1 (W c)) as [(a & Ha & Hw)|?]; [by left| |by right]. destruct a as [| | |cs]; cbn in Hw; try done; [by left|].
    destruct (Hv _ Ha). apply elem_of_list_fmap. by exists (false, c).
  - intros Hh. assert (pw (sys_pat s) c) as Hp. { apply W. destruct Hh as [Hh|Hh]; [left; by exists ArgRegistry|by right]. }
    destruct Hp as [?|Hp]; [done|]. by rewrite Hc in Hp.
Qed.
Lemma excludes_spec x s : owns sys_pat x ∨ conflict (sys_pat x) (sys_pat s) ↔ sys_excludes x s.
Proof.
  destruct (sys_pat_spec x) as (_ & _ & _ & W1 & R1). destruct (sys_pat_spec s) as (_ & _ & _ & W2 & R2). unfold excludes. rewrite owns_spec. split.
  - intros [?|(c & Hc)]; [by left|]. rewrite W1, R1, W2, R2 in Hc. destruct Hc as [[[H1|H1] H2]|[H1 [H2|H2]]].
    + do 2 right. exists c. left. split; [done|by left].
    + left. by right.
    + do 2 right. exists c. right. split; [done|by left].
    + destruct H1 as (a & Ha & Hr). destruct a as [| | |cs]; cbn in Hr; [left; by left|left; by right|done|]. right. left. split; [by exists cs|by right].
  - intros [?|[[[cs Hcs] Hr]|Hc]]; [by left| |right; by apply conflict_pat]. right.
    destruct (proj1 (Forall_forall _ _) (sy_ok x) _ Hcs) as [Hne _]. destruct cs as [|[b c] cs]; [done|]. exists c. right. rewrite R1, W2. split.
    + exists (ArgView ((b, c) :: cs)). split; [done|]. cbn. by left.
    + destruct Hr as [Hr|Hr]; [left; by exists ArgRegistry|by right].
Qed.
Lemma ok_excludes b s : ok sys_pat b s ↔ ∀ x, x ∈ b → ¬ sys_excludes x s.
Proof. rewrite (ok_iff sys_pat sys_pat_wf sys_pat_reg). setoid_rewrite <- excludes_spec. split; intros H x Hx; specialize (H x Hx); tauto. Qed.
Lemma not_ok_excludes b s : ¬ ok sys_pat b s → ∃ x, x ∈ b ∧ sys_excludes x s.
Proof.
  destruct (acc_of_spec sys_pat sys_pat_wf b) as (p & Hp & Hpw & HW & HN & Hw & Hr). intros Hno.
  destruct (ap_allows_spec p (sys_pat s) Hpw (sys_pat_wf s)) as (v & Hv & Hiff). destruct v; [destruct Hno; by exists p|].
  destruct (decide (Exists (λ x, ap_reg (sys_pat x) = AWrite) b)) as [Hx|Hx].
  { apply Exists_exists in Hx as (x & Hx & Ho). exists x. split; [done|]. apply excludes_spec. by left. }
  assert (ap_reg p = ANone) as Hpn.
  { destruct (decide (ap_reg p = ANone)) as [|Hne]; [done|exfalso]. apply HN in Hne as (y & Hy & Hyn). apply Hx, Exists_exists. exists y. split; [done|].
    pose proof (sys_pat_reg y). by destruct (ap_reg (sys_pat y)). }
  set (bad := λ ca : N * access, pw (sys_pat s) ca.1 ∨ (ca.2 = AWrite ∧ pr (sys_pat s) ca.1)).
  assert (∀ ca, Decision (bad ca)) as Hdec by (intros ca; unfold bad, pw, pr; solve_decision).
  destruct (decide (Exists bad (map_to_list (sm_abs (ap_comp p))))) as [Hb|Hb].
  - apply Exists_exists in Hb as ([c a] & Hin & Hb). apply elem_of_map_to_list in Hin. unfold bad in Hb. cbn [fst snd] in Hb. destruct Hb as [Hb|[-> Hb]].
    + assert (pr p c) as (x & Hx' & Hxc)%Hr by (right; by eexists). exists x. split; [done|]. apply excludes_spec. right. exists c. by right.
    + assert (pw p c) as (x & Hx' & Hxc)%Hw by (by right). exists x. split; [done|]. apply excludes_spec. right. exists c. by left.
  - exfalso. assert (false = true) as E; [|done]. apply Hiff. split; [naive_solver congruence|]. split; [naive_solver congruence|].
    intros c a Hca. split; [intros Hs|intros -> Hs]; apply Hb, Exists_exists; eexists; (split; [by apply elem_of_map_to_list|]); [by left|by right].
Qed.

Lemma greedy_in b l b' r x : greedy sys_pat b l b' r → x ∈ b → x ∈ b'.
Proof. intros G Hx. destruct (greedy_acc _ _ _ _ _ G) as (n & -> & _). apply elem_of_app. by left. Qed.

(** One pass. *)
Lemma pass_first l1 s l2 b r : greedy sys_pat [] (l1 ++ s :: l2) b r → NoDup (l1 ++ s :: l2) →
  (s ∈ b ∧ s ∉ r ∧ ∀ x, x ∈ b → x ∈ l1 → ¬ sys_excludes x s) ∨
  (s ∉ b ∧ (∃ x, x ∈ b ∧ x ∈ l1 ∧ sys_excludes x s) ∧ ∃ r1 r2, r = r1 ++ s :: r2 ∧ (∀ x, x ∈ r1 → x ∈ l1) ∧ ∀ x, x ∈ r2 → x ∈ l2).
Proof.
  intros G Hnd. destruct (greedy_acc _ _ _ _ _ G) as (n & Hn & Hp & _). cbn in Hn. subst n.
  assert (NoDup (b ++ r)) as Hndb by (by rewrite Hp). apply NoDup_app in Hndb as (_ & Hdisj & _).
  apply NoDup_app in Hnd as (Hnd1 & Hd & Hnd2). apply NoDup_cons in Hnd2 as [Hs2 _].
  apply (greedy_app sys_pat) in G as (b1 & r1 & r2 & G1 & G2 & ->). destruct (greedy_acc _ _ _ _ _ G1) as (n1 & Hn1 & Hp1 & _). cbn in Hn1. subst n1.
  inversion G2 as [|? ? ? ? ? Hok G3|? ? ? ? r3 Hok G3]; subst.
  - left. assert (s ∈ b) as Hsb. { eapply greedy_in; [exact G3|]. apply elem_of_app. right. by left. } split; [done|]. split; [by apply Hdisj|].
    intros x Hx Hx1. apply (proj1 (ok_excludes b1 s) Hok). destruct (greedy_acc _ _ _ _ _ G3) as (n3 & -> & Hp3 & _).
    apply elem_of_app in Hx as [Hx|Hx]; [apply elem_of_app in Hx as [Hx|Hx%elem_of_list_singleton]; [done|]|].
    + subst x. exfalso. apply (Hd s Hx1). by left.
    + exfalso. apply (Hd x Hx1). right. rewrite <- Hp3. apply elem_of_app. by left.
  - right. split; [intros Hx; apply (Hdisj s Hx); apply elem_of_app; right; by left|]. split.
    + destruct (not_ok_excludes _ _ Hok) as (x & Hx & He). exists x. split; [by eapply greedy_in|]. split; [|done]. rewrite <- Hp1. apply elem_of_app. by left.
    + exists r1, r3. split; [done|]. split; [intros x Hx; rewrite <- Hp1; apply elem_of_app; by right|].
      destruct (greedy_acc _ _ _ _ _ G3) as (n3 & _ & Hp3 & _). intros x Hx. rewrite <- Hp3. apply elem_of_app. by right.
Qed.

Lemma batches_first ss bs : batched sys_pat ss bs → NoDup ss → ∀ l1 s l2, ss = l1 ++ s :: l2 → ∀ (k : nat) b, bs !! k = Some b → s ∈ b →
  (∀ x, x ∈ b → x ∈ l1 → ¬ sys_excludes x s) ∧ ∀ (k' : nat) b', k' < k → bs !! k' = Some b' → ∃ x, x ∈ b' ∧ x ∈ l1 ∧ sys_excludes x s.
Proof.
  induction 1 as [|s0 ss b0 r bs G Hb IH]; intros Hnd l1 s l2 Hss k b Hk Hsb; [done|].
  destruct (greedy_acc _ _ _ _ _ G) as (n & Hn & Hp & _ & Hsr). cbn in Hn. subst n. assert (NoDup r) as Hndr by (rewrite <- Hp in Hnd; by apply NoDup_app in Hnd as (_ & _ & ?)).
  rewrite Hss in G, Hnd. destruct (pass_first _ _ _ _ _ G Hnd) as [(H1 & H2 & H3)|(H1 & H2 & r1 & r2 & -> & H3 & H3')].
  - destruct k as [|k]; cbn in Hk.
    + injection Hk as ->. split; [done|]. intros k' b' Hlt. lia.
    + destruct H2. rewrite <- (batched_perm _ _ _ Hb). apply elem_of_list_In, in_concat. exists b. split; apply elem_of_list_In; [|done]. by eapply elem_of_list_lookup_2.
  - destruct k as [|k]; cbn in Hk; [by injection Hk as ->|]. destruct (IH Hndr r1 s r2 eq_refl k b Hk Hsb) as [H4 H5]. split.
    + intros x Hx Hx1. apply H4; [done|]. assert (x ∈ r1 ++ s :: r2) as Hxr.
      { rewrite <- (batched_perm _ _ _ Hb). apply elem_of_list_In, in_concat. exists b. split; apply elem_of_list_In; [|done]. by eapply elem_of_list_lookup_2. }
      apply NoDup_app in Hnd as (_ & Hd & _). apply elem_of_app in Hxr as [?|[->|Hxr]%elem_of_cons]; [done| |].
      * destruct (Hd _ Hx1). by left.
      * destruct (Hd _ Hx1). right. by apply H3'.
    + intros [|k'] b' Hlt Hk'; cbn in Hk'.
      * by injection Hk' as <-.
      * destruct (H5 k' b') as (x & Hx & Hx1 & He); [lia|done|]. exists x. auto.
Qed.

(** * C81 *)
Lemma create_batched ss main : ∃ bs, stage_create sys_pat (Stage ss main) = Some (StageExec bs main, Stage [] main) ∧ batched sys_pat ss bs.
Proof.
  destruct (stage_batches_spec sys_pat sys_pat_wf (length ss) ss) as (bs & Hbs & Hb); [done|]. exists bs. split; [|done].
  unfold stage_create. cbn [st_systems st_main]. by rewrite Hbs.
Qed.

(** Every system is in the first batch in which no system that was added before it excludes it. *)
Theorem C81_first (ss main : list sysm) e st l1 s l2 : NoDup ss → stage_create sys_pat (Stage ss main) = Some (e, st) → ss = l1 ++ s :: l2 →
  ∃ (k : nat) b, se_batches e !! k = Some b ∧ s ∈ b ∧ (∀ x, x ∈ b → x ∈ l1 → ¬ sys_excludes x s) ∧
    ∀ (k' : nat) b', k' < k → se_batches e !! k' = Some b' → ∃ x, x ∈ b' ∧ x ∈ l1 ∧ sys_excludes x s.
Proof.
  intros Hnd Hc Hss. destruct (create_batched ss main) as (bs & Hc' & Hb). rewrite Hc in Hc'. injection Hc' as -> _. cbn [se_batches].
  assert (s ∈ concat bs) as Hs. { rewrite (batched_perm _ _ _ Hb), Hss. apply elem_of_app. right. by left. }
  apply elem_of_list_In, in_concat in Hs as (b & Hb1 & Hb2). apply elem_of_list_In in Hb1, Hb2. apply elem_of_list_lookup in Hb1 as [k Hk].
  exists k, b. split; [done|]. split; [done|]. by eapply batches_first.
Qed.

Lemma sublist_elem_of {X} (l1 l2 : list X) x : l1 `sublist_of` l2 → x ∈ l1 → x ∈ l2.
Proof. induction 1; [done| |]; intros Hx; [apply elem_of_cons in Hx as [->|Hx]; [by left|]|]; right; auto. Qed.
Lemma pick_nodup {X} (bs : list (list X)) xs : Forall2 (λ b x, x ∈ b) bs xs → NoDup (concat bs) → NoDup xs.
Proof.
  induction 1 as [|b x bs xs Hx H IH]; [constructor|]. cbn [concat]. intros (_ & Hd & Hnd)%NoDup_app. constructor; [|by apply IH].
  intros Hin. apply (Hd x Hx). apply elem_of_list_lookup in Hin as [i Hi]. destruct (Forall2_lookup_r _ _ _ _ _ H Hi) as (b' & Hb' & Hxb).
  apply elem_of_list_In, in_concat. exists b'. split; apply elem_of_list_In; [by eapply elem_of_list_lookup_2|done].
Qed.
Lemma pick {X Y} (P : X → Y → Prop) l : (∀ (i : nat) x, l !! i = Some x → ∃ y, P x y) → ∃ ys, Forall2 P l ys.
Proof.
  induction l as [|x l IH]; intros H; [exists []; constructor|]. destruct (H 0 x eq_refl) as [y Hy]. destruct IH as [ys Hys]; [intros i z Hz; by apply (H (S i))|].
  exists (y :: ys). by constructor.
Qed.

(** There are never more batches than one and the systems that exclude some one system. *)
Theorem C81_count (ss main : list sysm) e st : NoDup ss → ss ≠ [] → stage_create sys_pat (Stage ss main) = Some (e, st) →
  ∃ l1 s l2 xs, ss = l1 ++ s :: l2 ∧ length (se_batches e) = S (length xs) ∧ NoDup xs ∧ ∀ x, x ∈ xs → x ∈ l1 ∧ sys_excludes x s.
Proof.
  intros Hnd Hne Hc. destruct (create_batched ss main) as (bs & Hc' & Hb). rewrite Hc in Hc'. injection Hc' as -> _. cbn [se_batches].
  destruct bs as [|b bs _] using rev_ind; [by inversion Hb; subst|]. pose proof (batched_sublist sys_pat sys_pat_wf _ _ Hb) as Hsub.
  apply Forall_app in Hsub as [_ Hsub]. apply Forall_cons in Hsub as [[Hsub Hbne] _]. destruct b as [|s b]; [done|].
  assert (s ∈ ss) as Hs by (eapply sublist_elem_of; [exact Hsub|by left]). apply elem_of_list_split in Hs as (l1 & l2 & Hss).
  destruct (batches_first _ _ Hb Hnd _ _ _ Hss (length bs) (s :: b)) as [_ H]; [by apply list_lookup_middle|by left|].
  destruct (pick (λ b' x, x ∈ b' ∧ x ∈ l1 ∧ sys_excludes x s) bs) as [xs Hxs].
  { intros i b' Hi. apply (H i b'); [by eapply lookup_lt_Some|]. by apply lookup_app_l_Some. }
  exists l1, s, l2, xs. split; [done|]. split; [rewrite app_length; cbn; rewrite (Forall2_length _ _ _ Hxs); lia|]. split.
  - eapply (pick_nodup bs); [eapply Forall2_impl; [exact Hxs|]; by intros ? ? [? _]|].
    assert (NoDup (concat (bs ++ [s :: b]))) as Hndc by (by rewrite (batched_perm _ _ _ Hb)). rewrite concat_app in Hndc. by apply NoDup_app in Hndc as [? _].
  - intros x Hx. apply elem_of_list_lookup in Hx as [i Hi]. destruct (Forall2_lookup_r _ _ _ _ _ Hxs Hi) as (? & _ & _ & ?). done.
Qed.

(** One batch is enough exactly if no system excludes a later one. *)
Theorem C81_one (ss main : list sysm) e st : NoDup ss → stage_create sys_pat (Stage ss main) = Some (e, st) →
  length (se_batches e) ≤ 1 ↔ ∀ l1 x l2 s l3, ss = l1 ++ x :: l2 ++ s :: l3 → ¬ sys_excludes x s.
Proof.
  intros Hnd Hc. split.
  - intros Hle l1 x l2 s l3 Hss He. destruct (create_batched ss main) as (bs & Hc' & Hb). rewrite Hc in Hc'. injection Hc' as -> _. cbn [se_batches] in Hle.
    destruct bs as [|b [|b' bs]]; [by inversion Hb; subst; destruct l1| |cbn in Hle; lia].
    pose proof (batched_perm _ _ _ Hb) as Hp. cbn in Hp. rewrite app_nil_r in Hp.
    destruct (batches_first _ _ Hb Hnd (l1 ++ x :: l2) s l3) with (k := 0) (b := b) as [H _]; [by rewrite <- app_assoc|done| |].
    { rewrite Hp, Hss. set_solver. }
    apply (H x); [rewrite Hp, Hss; set_solver|set_solver|done].
  - intros Hno. destruct (decide (ss = [])) as [->|Hne].
    { destruct (create_batched [] main) as (bs & Hc' & Hb). rewrite Hc in Hc'. injection Hc' as -> _. inversion Hb. cbn. lia. }
    destruct (C81_count ss main e st Hnd Hne Hc) as (l1 & s & l2 & xs & Hss & -> & _ & Hx). destruct xs as [|x xs]; [cbn; lia|]. exfalso.
    destruct (Hx x) as [Hin He]; [by left|]. apply elem_of_list_split in Hin as (l3 & l4 & ->). apply (Hno l3 x l4 s l2); [|done]. by rewrite Hss, <- app_assoc.
Qed.

(** Of two systems of which the first excludes the second, the second runs in an earlier batch only if some third one, added
    before both and in that batch, excludes the first and not the second. *)
Theorem C81_reversed (ss main : list sysm) e st l1 s1 l2 s2 l3 (k1 k2 : nat) b1 b2 : NoDup ss → stage_create sys_pat (Stage ss main) = Some (e, st) →
  ss = l1 ++ s1 :: l2 ++ s2 :: l3 → se_batches e !! k1 = Some b1 → s1 ∈ b1 → se_batches e !! k2 = Some b2 → s2 ∈ b2 → k2 < k1 →
  ∃ x, x ∈ b2 ∧ x ∈ l1 ∧ sys_excludes x s1 ∧ ¬ sys_excludes x s2.
Proof.
  intros Hnd Hc Hss Hk1 Hs1 Hk2 Hs2 Hlt. destruct (create_batched ss main) as (bs & Hc' & Hb). rewrite Hc in Hc'. injection Hc' as -> _. cbn [se_batches] in *.
  destruct (batches_first _ _ Hb Hnd _ _ _ Hss k1 b1 Hk1 Hs1) as [_ H1]. destruct (H1 k2 b2 Hlt Hk2) as (x & Hx & Hx1 & He). exists x. split_and!; try done.
  destruct (batches_first _ _ Hb Hnd (l1 ++ s1 :: l2) s2 l3) with (k := k2) (b := b2) as [H2 _]; [by rewrite <- app_assoc|done|done|]. apply H2; [done|]. set_solver.
Qed.

(** * Examples *)
Definition ex81 : list sysm := [readA 1; writeA 2; writeB 3; readA 4; writeAB 5].
Example ex81_nodup : NoDup ex81.
Proof. apply (NoDup_fmap_1 sy_name). apply (bool_decide_unpack _). by vm_compute. Qed.
Example ex81_run : batch_names ex81 = Some [[1; 3; 4]; [2]; [5]].
Proof. by vm_compute. Qed.
Example ex_C81_first e st := C81_first ex81 [] e st [readA 1] (writeA 2) [writeB 3; readA 4; writeAB 5] ex81_nodup.
Example ex_C81_count e st := C81_count ex81 [] e st ex81_nodup.
Example ex_C81_one e st := C81_one ex81 [] e st ex81_nodup.
Example ex_C81_reversed e st := C81_reversed ex81 [] e st [readA 1] (writeA 2) [writeB 3] (readA 4) [writeAB 5] 1 0 [writeA 2] [readA 1; writeB 3; readA 4] ex81_nodup.

Print Assumptions C81_first.
Print Assumptions C81_count.
Print Assumptions C81_one.
Print Assumptions C81_reversed.
