(** C30-C35 and C48-C50: access checks, batches, stages, schedules. *)
From Verif Require Import Base HandlePool SparseMap SparseMapProofs Access AccessProofs ParallelFor Stage StageProofs Interleave.

(** * Specification: what the parameters of a system give access to *)

Definition arg_writes (a : sysarg) (c : N) : Prop :=
  match a with ArgRegistry => True | ArgView cs => (false, c) ∈ cs | _ => False end.
Definition arg_reads (a : sysarg) (c : N) : Prop :=
  match a with ArgRegistry | ArgConstRegistry => True | ArgView cs => c ∈ cs.*2 | ArgCommands => False end.
Definition sys_writes (args : list sysarg) (c : N) : Prop := ∃ a, a ∈ args ∧ arg_writes a c.
Definition sys_reads (args : list sysarg) (c : N) : Prop := ∃ a, a ∈ args ∧ arg_reads a c.

(** One of them writes a component the other reads or writes. *)
Definition args_conflict (a1 a2 : list sysarg) : Prop :=
  ∃ c, (sys_writes a1 c ∧ (sys_reads a2 c ∨ sys_writes a2 c)) ∨ (sys_writes a2 c ∧ (sys_reads a1 c ∨ sys_writes a1 c)).

(** A view has at least one component and component ids are below 2^32 - 1. *)
Definition arg_ok (a : sysarg) : Prop :=
  match a with ArgView cs => cs ≠ [] ∧ Forall (λ x : bool * N, id_ok x.2) cs | _ => True end.

(** A named system. *)
Record sysm := Sysm { sy_name : nat; sy_args : list sysarg; sy_ok : Forall arg_ok sy_args }.
Definition sys_pat (s : sysm) : pattern := default ap_empty (args_pattern (sy_args s)).
Notation sys_conflict s1 s2 := (args_conflict (sy_args s1) (sy_args s2)).

(** * Patterns of systems *)

Lemma ap_fold_spec l : l ≠ [] → Forall pat_wf l →
  ∃ r, ap_fold l = Some r ∧ pat_wf r ∧
    (∀ c, pw r c ↔ ∃ p, p ∈ l ∧ pw p c) ∧ (∀ c, pr r c ↔ ∃ p, p ∈ l ∧ pr p c) ∧
    (Forall (λ p, ap_reg p ≠ ARead) l → ap_reg r ≠ ARead) ∧
    (Forall (λ p, ap_reg p = ANone) l → ap_reg r = ANone).
Proof.
  induction l as [|p l IH]; intros Hne Hwf; [done|]. apply Forall_cons in Hwf as [Hp Hl].
  destruct l as [|q l].
  - exists p. split; [done|]. split; [done|]. setoid_rewrite elem_of_list_singleton.
    split; [naive_solver|]. split; [naive_solver|]. split; intros H; by apply Forall_cons in H as [H _].
  - destruct IH as (r & Hr & Hrw & H1 & H2 & H3 & H4); [done|done|].
    change (ap_fold (p :: q :: l)) with (x ← ap_fold (q :: l); ap_and p x). rewrite Hr. cbn [mbind option_bind].
    destruct (ap_and_spec p r Hp Hrw) as (r' & Hr' & Hrw' & Hreg & Hw & Hd & _).
    exists r'. split; [done|]. split; [done|]. setoid_rewrite Hw. setoid_rewrite Hd. setoid_rewrite H1. setoid_rewrite H2.
    split; [intros c; setoid_rewrite (elem_of_cons (q :: l)); naive_solver|].
    split; [intros c; setoid_rewrite (elem_of_cons (q :: l)); naive_solver|].
    rewrite Hreg. split; intros [Hx Hxs]%Forall_cons.
    + specialize (H3 Hxs). destruct (ap_reg p), (ap_reg r); naive_solver.
    + specialize (H4 Hxs). by rewrite Hx, H4.
Qed.

Lemma mapM_total {X Y} (f : X → option Y) (Q : X → Y → Prop) l :
  (∀ x, x ∈ l → ∃ y, f x = Some y ∧ Q x y) → ∃ ys, mapM f l = Some ys ∧ Forall2 Q l ys.
Proof.
  induction l as [|x l IH]; intros H; [exists []; split; [done|constructor]|].
  destruct (H x) as (y & Hy & Hq); [by left|]. destruct IH as (ys & Hys & HQ); [intros z Hz; apply H; by right|].
  exists (y :: ys). cbn. rewrite Hy. cbn. rewrite Hys. split; [done|by constructor].
Qed.

Lemma arg_pattern_spec a : arg_ok a →
  ∃ p, arg_pattern a = Some p ∧ pat_wf p ∧ ap_reg p ≠ ARead ∧
    (∀ c, pw p c ↔ arg_writes a c ∨ a = ArgConstRegistry) ∧ (∀ c, pr p c ↔ arg_reads a c).
Proof.
  intros Hok. destruct a as [| | |cs]; cbn [arg_pattern arg_writes arg_reads].
  - exists (ap_registry AWrite). split; [done|]. split; [apply pat_wf_registry|]. split; [done|]. unfold pw, pr. cbn. naive_solver.
  - exists (ap_registry AWrite). split; [done|]. split; [apply pat_wf_registry|]. split; [done|]. unfold pw, pr. cbn. naive_solver.
  - exists ap_empty. split; [done|]. split; [apply pat_wf_empty|]. split; [done|]. unfold pw, pr. cbn.
    split; intros c; split.
    + intros [?|?]; done.
    + intros [?|?]; done.
    + intros [?|[? ?]]; done.
    + done.
  - destruct Hok as [Hne Hids].
    destruct (mapM_total (λ x : bool * N, ap_component (if x.1 then ARead else AWrite) x.2)
      (λ x p, pat_wf p ∧ ap_reg p = ANone ∧ sm_abs (ap_comp p) = {[ x.2 := if x.1 then ARead else AWrite ]}) cs) as (ps & Hps & HQ).
    { intros x Hx. rewrite Forall_forall in Hids. apply ap_component_spec. by apply Hids. }
    rewrite Hps. cbn [mbind option_bind].
    destruct (ap_fold_spec ps) as (r & Hr & Hrw & Hw & Hd & _ & Hn).
    { intros ->. by apply Forall2_nil_inv_r in HQ. }
    { eapply Forall2_Forall_r; [exact HQ|]. apply Forall_forall. naive_solver. }
    assert (ap_reg r = ANone) as HrN.
    { apply Hn. eapply Forall2_Forall_r; [exact HQ|]. apply Forall_forall. naive_solver. }
    exists r. split; [done|]. split; [done|]. split; [by rewrite HrN|].
    split; intros c; [rewrite Hw|rewrite Hd]; split.
    + intros (p & Hp & Hpc). left. apply elem_of_list_lookup in Hp as [i Hi].
      destruct (Forall2_lookup_r _ _ _ _ _ HQ Hi) as ([b c'] & Hx & _ & Hn' & Habs). cbn in *.
      unfold pw in Hpc. rewrite Hn', Habs in Hpc. destruct Hpc as [?|Hpc]; [done|].
      apply lookup_singleton_Some in Hpc as [<- Hb]. destruct b; [done|]. by eapply elem_of_list_lookup_2.
    + intros [Hx|?]; [|done]. apply elem_of_list_lookup in Hx as [i Hi].
      destruct (Forall2_lookup_l _ _ _ _ _ HQ Hi) as (p & Hp & _ & _ & Habs). cbn in *. exists p.
      split; [by eapply elem_of_list_lookup_2|]. right. by rewrite Habs, lookup_insert.
    + intros (p & Hp & Hpc). apply elem_of_list_lookup in Hp as [i Hi].
      destruct (Forall2_lookup_r _ _ _ _ _ HQ Hi) as ([b c'] & Hx & _ & Hn' & Habs). cbn in *.
      unfold pr in Hpc. rewrite Hn', Habs in Hpc. destruct Hpc as [?|[a Hpc]]; [done|].
      apply lookup_singleton_Some in Hpc as [<- Hb]. apply elem_of_list_fmap. exists (b, c'). split; [done|]. by eapply elem_of_list_lookup_2.
    + intros ([b c'] & -> & Hx)%elem_of_list_fmap. apply elem_of_list_lookup in Hx as [i Hi].
      destruct (Forall2_lookup_l _ _ _ _ _ HQ Hi) as (p & Hp & _ & _ & Habs). cbn in *. exists p.
      split; [by eapply elem_of_list_lookup_2|]. right. rewrite Habs, lookup_insert. by eexists.
Qed.

Lemma args_pattern_spec args : Forall arg_ok args →
  ∃ p, args_pattern args = Some p ∧ pat_wf p ∧ ap_reg p ≠ ARead ∧
    (∀ c, pw p c ↔ sys_writes args c ∨ ArgConstRegistry ∈ args) ∧ (∀ c, pr p c ↔ sys_reads args c).
Proof.
  intros Hok. destruct args as [|a args].
  { exists ap_empty. split; [done|]. split; [apply pat_wf_empty|]. split; [done|]. unfold sys_writes, sys_reads.
    setoid_rewrite elem_of_nil. unfold pw, pr. cbn. split; intros c; split.
    - intros [?|?]; done.
    - naive_solver.
    - intros [?|[? ?]]; done.
    - naive_solver. }
  set (l := a :: args) in *.
  destruct (mapM_total arg_pattern (λ a p, pat_wf p ∧ ap_reg p ≠ ARead ∧
    (∀ c, pw p c ↔ arg_writes a c ∨ a = ArgConstRegistry) ∧ (∀ c, pr p c ↔ arg_reads a c)) l) as (ps & Hps & HQ).
  { intros x Hx. apply arg_pattern_spec. rewrite Forall_forall in Hok. by apply Hok. }
  destruct (ap_fold_spec ps) as (r & Hr & Hrw & Hw & Hd & HR & _).
  { intros ->. by apply Forall2_nil_inv_r in HQ. }
  { eapply Forall2_Forall_r; [exact HQ|]. apply Forall_forall. naive_solver. }
  destruct (ap_and_spec ap_empty r pat_wf_empty Hrw) as (p & Hp & Hpw & Hreg & Hw' & Hd' & _).
  exists p. split. { change (args_pattern l) with (ps ← mapM arg_pattern l; q ← ap_fold ps; ap_and ap_empty q). rewrite Hps. cbn [mbind option_bind]. rewrite Hr. done. }
  split; [done|]. split.
  { rewrite Hreg. assert (ap_reg r ≠ ARead). { apply HR. eapply Forall2_Forall_r; [exact HQ|]. apply Forall_forall. naive_solver. }
    by destruct (ap_reg r). }
  assert (∀ c, ¬ pw ap_empty c) as He1. { intros c [?|?]; done. }
  assert (∀ c, ¬ pr ap_empty c) as He2. { intros c [H|[? ?]]; [by destruct H|done]. }
  unfold sys_writes, sys_reads. split; intros c.
  - rewrite Hw', Hw. split.
    + intros [?|(q & Hq & Hqc)]; [by destruct (He1 c)|]. apply elem_of_list_lookup in Hq as [i Hi].
      destruct (Forall2_lookup_r _ _ _ _ _ HQ Hi) as (x & Hx & _ & _ & H1 & _). destruct (proj1 (H1 c) Hqc) as [Hy|Hy].
      * left. exists x. split; [by eapply elem_of_list_lookup_2|done].
      * right. subst x. by eapply elem_of_list_lookup_2.
    + intros H. right. assert (∃ x, x ∈ l ∧ (arg_writes x c ∨ x = ArgConstRegistry)) as (x & Hx & Hxc) by naive_solver.
      apply elem_of_list_lookup in Hx as [i Hi]. destruct (Forall2_lookup_l _ _ _ _ _ HQ Hi) as (q & Hq & _ & _ & H1 & _).
      exists q. split; [by eapply elem_of_list_lookup_2|]. by apply H1.
  - rewrite Hd', Hd. split.
    + intros [?|(q & Hq & Hqc)]; [by destruct (He2 c)|]. apply elem_of_list_lookup in Hq as [i Hi].
      destruct (Forall2_lookup_r _ _ _ _ _ HQ Hi) as (x & Hx & _ & _ & _ & H1). pose proof (proj1 (H1 c) Hqc) as Hy.
      exists x. split; [by eapply elem_of_list_lookup_2|done].
    + intros (x & Hx & Hxc). right. apply elem_of_list_lookup in Hx as [i Hi].
      destruct (Forall2_lookup_l _ _ _ _ _ HQ Hi) as (q & Hq & _ & _ & _ & H1).
      exists q. split; [by eapply elem_of_list_lookup_2|]. by apply H1.
Qed.

Lemma sys_pat_spec s : args_pattern (sy_args s) = Some (sys_pat s) ∧ pat_wf (sys_pat s) ∧ ap_reg (sys_pat s) ≠ ARead ∧
  (∀ c, pw (sys_pat s) c ↔ sys_writes (sy_args s) c ∨ ArgConstRegistry ∈ sy_args s) ∧
  (∀ c, pr (sys_pat s) c ↔ sys_reads (sy_args s) c).
Proof.
  destruct (args_pattern_spec (sy_args s) (sy_ok s)) as (p & Hp & H). unfold sys_pat. rewrite Hp. done.
Qed.
Lemma sys_pat_wf s : pat_wf (sys_pat s).
Proof. apply sys_pat_spec. Qed.
Lemma sys_pat_reg s : ap_reg (sys_pat s) ≠ ARead.
Proof. apply sys_pat_spec. Qed.

Lemma writes_reads args c : sys_writes args c → sys_reads args c.
Proof.
  intros (a & Ha & H). exists a. split; [done|]. destruct a; cbn in *; try done.
  apply elem_of_list_fmap. exists (false, c). done.
Qed.
Lemma conflict_pat s1 s2 : sys_conflict s1 s2 → conflict (sys_pat s1) (sys_pat s2).
Proof.
  destruct (sys_pat_spec s1) as (_ & _ & _ & W1 & R1). destruct (sys_pat_spec s2) as (_ & _ & _ & W2 & R2).
  intros (c & [[H1 H2]|[H1 H2]]); exists c; rewrite !W1, !W2, !R1, !R2.
  - left. split; [by left|]. destruct H2; [done|by apply writes_reads].
  - right. split; [|by left]. destruct H2; [done|by apply writes_reads].
Qed.

(** * C30 *)

(** The accumulated pattern of any list of systems is defined; whenever it allows a further system, that
    system conflicts with none of them. *)
Theorem C30_no_conflict (batch : list sysm) (s : sysm) :
  ∃ p b, acc_of sys_pat batch = Some p ∧ ap_allows p (sys_pat s) = Some b ∧
    (b = true → ∀ x, x ∈ batch → ¬ sys_conflict x s).
Proof.
  destruct (acc_of_spec sys_pat sys_pat_wf batch) as (p & Hp & Hpw & _).
  destruct (ap_allows_spec p (sys_pat s) Hpw (sys_pat_wf s)) as (b & Hb & _). exists p, b. split; [done|]. split; [done|].
  intros -> x Hx Hc%conflict_pat. assert (ok sys_pat batch s) as Hok by (by exists p).
  pose proof (proj1 (ok_iff sys_pat sys_pat_wf sys_pat_reg _ _) Hok) as Hok'. by destruct (Hok' x Hx) as [_ []].
Qed.

(** Without registry parameters the check is exact: it refuses nothing else. *)
Theorem C30_exact (batch : list sysm) (s : sysm) :
  (∀ x, x ∈ s :: batch → ArgRegistry ∉ sy_args x ∧ ArgConstRegistry ∉ sy_args x) →
  ∃ p b, acc_of sys_pat batch = Some p ∧ ap_allows p (sys_pat s) = Some b ∧
    (b = true ↔ ∀ x, x ∈ batch → ¬ sys_conflict x s).
Proof.
  intros Hno. destruct (C30_no_conflict batch s) as (p & b & Hp & Hb & H). exists p, b. split; [done|]. split; [done|].
  split; [done|]. intros Hnc. assert (ok sys_pat batch s) as (q & Hq & Hqa); [|congruence].
  apply (ok_iff sys_pat sys_pat_wf sys_pat_reg). intros x Hx.
  destruct (sys_pat_spec x) as (_ & _ & _ & W1 & R1). destruct (sys_pat_spec s) as (_ & _ & _ & W2 & R2).
  assert (∀ y, y ∈ s :: batch → ∀ c, pw (sys_pat y) c → sys_writes (sy_args y) c) as HW.
  { intros y Hy c Hc. destruct (sys_pat_spec y) as (_ & _ & _ & W & _). destruct (proj1 (W c) Hc) as [?|?]; [done|].
    by destruct (Hno y Hy) as [_ []]. }
  split.
  - intros Ho. set (c := fresh (list_to_set (concat ((λ a, match a with ArgView cs => cs.*2 | _ => [] end) <$> sy_args x)) : gset N)).
    assert (sys_writes (sy_args x) c) as (a & Ha & Hac).
    { apply HW; [by right|]. by left. }
    destruct a as [| | |cs]; try done; [by destruct (Hno x (elem_of_list_further _ _ _ Hx)) as [[] _]|]. cbn in Hac.
    eapply (is_fresh (list_to_set (concat ((λ a, match a with ArgView cs => cs.*2 | _ => [] end) <$> sy_args x)) : gset N)).
    apply elem_of_list_to_set. fold c. apply elem_of_list_In, in_concat. exists (cs.*2). split; apply elem_of_list_In.
    + apply elem_of_list_fmap. by exists (ArgView cs).
    + apply elem_of_list_fmap. by exists (false, c).
  - intros (c & [[H1 H2]|[H1 H2]]); apply (Hnc x Hx); exists c.
    + left. split; [apply HW; [by right|done]|]. left. by apply R2.
    + right. split; [apply HW; [by left|done]|]. left. by apply R1.
Qed.

(** A pattern that claims read access to the registry (no parameter of the library produces one; a
    user-defined system interface can) allows one that claims write access. *)
Theorem C30_registry_read_refuted :
  ap_allows (ap_registry ARead) (ap_registry AWrite) = Some true ∧
  ∀ c, ap_reads (ap_registry ARead) c = Some true ∧ ap_writes (ap_registry AWrite) c = Some true.
Proof. done. Qed.

(** Example systems: [v b c] is a view of one component, const if [b]. *)
Definition one (b : bool) (c : N) : list sysarg := [ArgView [(b, c)]].
Lemma one_ok b c : id_ok c → Forall arg_ok (one b c).
Proof. intros H. repeat constructor; done. Qed.
Lemma ok0 : id_ok 0. Proof. done. Qed.
Lemma ok1 : id_ok 1. Proof. done. Qed.
Lemma two_ok b c : id_ok b → id_ok c → Forall arg_ok [ArgView [(false, b); (false, c)]].
Proof. intros H H'. repeat constructor; done. Qed.
Definition readA (n : nat) : sysm := Sysm n (one true 0) (one_ok _ _ ok0).
Definition writeA (n : nat) : sysm := Sysm n (one false 0) (one_ok _ _ ok0).
Definition writeB (n : nat) : sysm := Sysm n (one false 1) (one_ok _ _ ok1).
Definition writeAB (n : nat) : sysm := Sysm n [ArgView [(false, 0%N); (false, 1%N)]] (two_ok _ _ ok0 ok1).
Lemma reg_ok : Forall arg_ok [ArgRegistry]. Proof. by repeat constructor. Qed.
Lemma cmd_ok : Forall arg_ok [ArgCommands]. Proof. by repeat constructor. Qed.
Definition ownReg (n : nat) : sysm := Sysm n [ArgRegistry] reg_ok.
Definition cmdW (n : nat) : sysm := Sysm n [ArgCommands] cmd_ok.

Example C30_example :
  (p ← acc_of sys_pat [readA 1; writeB 2]; ap_allows p (sys_pat (readA 3))) = Some true ∧
  (p ← acc_of sys_pat [readA 1; writeB 2]; ap_allows p (sys_pat (writeA 3))) = Some false ∧
  (p ← acc_of sys_pat [readA 1; writeB 2]; ap_allows p (sys_pat (ownReg 3))) = Some false ∧
  sys_conflict (readA 1) (writeA 3).
Proof.
  split; [by vm_compute|]. split; [by vm_compute|]. split; [by vm_compute|].
  exists 0%N. right. split; [|left]; eexists; (split; [by left|]); cbn; by left.
Qed.

(** * C31 *)

(** [create_executor] terminates without error for every list of systems; every system is in exactly one
    batch (the batches together are a permutation of the systems); every batch is non-empty, lists its
    systems in registration order and contains no two conflicting systems. *)
Theorem C31_batches (ss main : list sysm) :
  ∃ bs, stage_create sys_pat (Stage ss main) = Some (StageExec bs main, Stage [] main) ∧
    concat bs ≡ₚ ss ∧
    ∀ b, b ∈ bs → b ≠ [] ∧ b `sublist_of` ss ∧
      ∀ (i j : nat) s1 s2, i < j → b !! i = Some s1 → b !! j = Some s2 → ¬ sys_conflict s1 s2.
Proof.
  destruct (stage_batches_spec sys_pat sys_pat_wf (length ss) ss) as (bs & Hbs & Hb); [done|].
  exists bs. unfold stage_create. cbn [st_systems st_main]. rewrite Hbs. split; [done|].
  split; [by eapply batched_perm|]. intros b Hin.
  pose proof (batched_sublist sys_pat sys_pat_wf _ _ Hb) as H1. rewrite Forall_forall in H1. destruct (H1 b Hin) as [H2 H3].
  split; [done|]. split; [done|]. intros i j s1 s2 Hij Hi Hj Hc%conflict_pat.
  pose proof (batched_pairwise sys_pat sys_pat_wf sys_pat_reg _ _ Hb) as H4. rewrite Forall_forall in H4.
  by destruct (H4 b Hin i j s1 s2 Hij Hi Hj) as [_ []].
Qed.

(** The same for arbitrary patterns (user-defined system interfaces) except for the conflicts. *)
Theorem C31_partition_any_patterns {A} (pat : A → pattern) (ss main : list A) :
  (∀ s, pat_wf (pat s)) →
  ∃ bs, stage_create pat (Stage ss main) = Some (StageExec bs main, Stage [] main) ∧
    concat bs ≡ₚ ss ∧ ∀ b, b ∈ bs → b ≠ [] ∧ b `sublist_of` ss.
Proof.
  intros Hwf. destruct (stage_batches_spec pat Hwf (length ss) ss) as (bs & Hbs & Hb); [done|].
  exists bs. unfold stage_create. cbn [st_systems st_main]. rewrite Hbs. split; [done|].
  split; [by eapply batched_perm|]. intros b Hin.
  pose proof (batched_sublist pat Hwf _ _ Hb) as H1. rewrite Forall_forall in H1. by destruct (H1 b Hin).
Qed.

(** Two user-defined systems, one claiming to read and one claiming to write the registry, share a batch. *)
Theorem C31_registry_read_refuted :
  stage_create ap_registry (Stage [ARead; AWrite] []) = Some (StageExec [[ARead; AWrite]] [], Stage [] []).
Proof. by vm_compute. Qed.

(** The names in the batches. *)
Definition batch_names (ss : list sysm) : option (list (list nat)) :=
  match stage_create sys_pat (Stage ss []) with
  | Some (e, _) => Some (map (map sy_name) (se_batches e))
  | None => None
  end.

Example C31_example :
  batch_names [writeA 1; readA 2; writeB 3; readA 4; ownReg 5] =
    Some [[1; 3]; [2; 4]; [5]].
Proof. by vm_compute. Qed.

(** * C32 *)

(** Reading, writing, reading the same component: the third system runs in the first batch, before the
    second one. *)
Theorem C32_order_refuted :
  batch_names [readA 1; writeA 2; readA 3] =
    Some [[1; 3]; [2]] ∧ sys_conflict (writeA 2) (readA 3).
Proof.
  split; [by vm_compute|]. exists 0%N. left. split; [|left]; eexists; (split; [by left|]); cbn; by left.
Qed.
(** Also with writers only. *)
Theorem C32_writers_refuted :
  batch_names [writeA 1; writeAB 2; writeB 3] =
    Some [[1; 3]; [2]] ∧ sys_conflict (writeAB 2) (writeB 3).
Proof.
  split; [by vm_compute|]. exists 1%N. left. split.
  - eexists. split; [by left|]. cbn. right. left.
  - left. eexists. split; [by left|]. cbn. by left.
Qed.

Section order.
Context {A : Type} (pat : A → pattern).
Lemma greedy_app b l1 l2 b' r : greedy pat b (l1 ++ l2) b' r →
  ∃ b1 r1 r2, greedy pat b l1 b1 r1 ∧ greedy pat b1 l2 b' r2 ∧ r = r1 ++ r2.
Proof.
  revert b r. induction l1 as [|s l1 IH]; intros b r H.
  - exists b, [], r. split; [constructor|done].
  - cbn in H. inversion H as [|? ? ? ? ? Hok Hg|? ? ? ? r0 Hok Hg]; simplify_eq.
    + destruct (IH _ _ Hg) as (b1 & r1 & r2 & H1 & H2 & ->). exists b1, r1, r2. split; [by apply g_take|done].
    + destruct (IH _ _ Hg) as (b1 & r1 & r2 & H1 & H2 & ->). exists b1, (s :: r1), r2. split; [by apply g_skip|done].
Qed.
End order.

(** What is missing in [C32_order_partial]: the order holds only when conflict is transitive on the stage,
    for instance when each system writes exactly one component. *)
Theorem C32_order_partial (ss main : list sysm) l1 s1 l2 s2 l3 :
  NoDup ss → (∀ x y z, x ∈ ss → y ∈ ss → z ∈ ss → x ≠ z →
    conflict (sys_pat x) (sys_pat y) → conflict (sys_pat y) (sys_pat z) → conflict (sys_pat x) (sys_pat z)) →
  ss = l1 ++ s1 :: l2 ++ s2 :: l3 → sys_conflict s1 s2 →
  ∃ bs, stage_create sys_pat (Stage ss main) = Some (StageExec bs main, Stage [] main) ∧
    ∀ (k1 k2 : nat) b1 b2, bs !! k1 = Some b1 → bs !! k2 = Some b2 → s1 ∈ b1 → s2 ∈ b2 → k1 < k2.
Proof.
  intros Hnd Htr Hss Hc%conflict_pat.
  destruct (stage_batches_spec sys_pat sys_pat_wf (length ss) ss) as (bs & Hbs & Hb); [done|].
  exists bs. unfold stage_create. cbn [st_systems st_main]. rewrite Hbs. split; [done|]. clear Hbs.
  revert l1 l2 l3 Hss. induction Hb as [|s ss b r bs G Hb IH]; intros l1 l2 l3 Hss; [by destruct l1|].
  pose proof (greedy_acc sys_pat _ _ _ _ G) as (n & Hn & Hp & Hsub1 & Hsub2). cbn in Hn. subst n.
  assert (NoDup (b ++ r)) as Hndbr by (by rewrite Hp).
  apply NoDup_app in Hndbr as (Hndb & Hdisj & Hndr).
  assert (∀ x, x ∈ b → x ∈ s :: ss) as Hbin by (intros x Hx; rewrite <- Hp; apply elem_of_app; by left).
  assert (∀ x, x ∈ r → x ∈ s :: ss) as Hrin by (intros x Hx; rewrite <- Hp; apply elem_of_app; by right).
  pose proof (batched_perm sys_pat _ _ Hb) as Hperm.
  assert (∀ (k : nat) x b, bs !! k = Some b → x ∈ b → x ∈ r) as Hlater.
  { intros k x b0 Hk Hx. rewrite <- Hperm. apply elem_of_list_In, in_concat. exists b0. split; apply elem_of_list_In; [|done].
    by eapply elem_of_list_lookup_2. }
  pose proof (batched_pairwise sys_pat sys_pat_wf sys_pat_reg (s :: ss) (b :: bs)) as Hpw.
  specialize (Hpw (b_cons sys_pat s ss b r bs G Hb)). apply Forall_cons in Hpw as [Hpw _].
  rewrite Hss in G. apply greedy_app in G as (b1 & r1 & r2 & G1 & G2 & ->).
  assert (s1 ∈ s :: ss) as Hs1. { rewrite Hss, elem_of_app, elem_of_cons. naive_solver. }
  assert (s2 ∈ s :: ss) as Hs2. { rewrite Hss, elem_of_app, elem_of_cons, elem_of_app, elem_of_cons. naive_solver. }
  inversion G2 as [|? ? ? ? ? Hok1 G3|? ? ? ? r3 Hok1 G3]; subst.
  - (* s1 is in the first batch *)
    destruct (greedy_acc sys_pat _ _ _ _ G3) as (n & -> & Hp3 & _).
    assert (s1 ∈ (b1 ++ [s1]) ++ n) as Hin by (rewrite !elem_of_app, elem_of_list_singleton; naive_solver).
    intros k1 k2 c1 c2 Hk1 Hk2 Hc1 Hc2.
    destruct k1 as [|k1]; cbn in Hk1; [|exfalso; apply (Hdisj s1 Hin); by eapply Hlater].
    destruct k2 as [|k2]; [|lia]. exfalso. cbn in Hk2. simplify_eq.
    assert (s2 ∈ (b1 ++ [s1]) ++ n → False) as HF; [|done]. intros Hin2. clear Hc2.
    apply elem_of_app in Hin2 as [Hin2|Hin2].
    + (* s2 before s1 in the batch: impossible, it comes later in the list *)
      rewrite Hss in Hnd. apply NoDup_app in Hnd as (_ & Hd & Hnd2). apply NoDup_cons in Hnd2 as [Hn1 _].
      apply elem_of_app in Hin2 as [Hin2|Hin2%elem_of_list_singleton].
      * destruct (greedy_acc sys_pat _ _ _ _ G1) as (m & Hm & Hpm & _). cbn in Hm. subst m.
        apply (Hd s2); [rewrite <- Hpm; apply elem_of_app; by left|]. rewrite elem_of_cons, elem_of_app, elem_of_cons. naive_solver.
      * subst s2. apply Hn1. rewrite elem_of_app, elem_of_cons. naive_solver.
    + apply elem_of_list_lookup in Hin2 as [k Hk].
      destruct (Hpw (length b1) (length b1 + 1 + k) s1 s2) as [_ []]; [lia| | |done].
      * rewrite lookup_app_l by (rewrite app_length; cbn; lia). by rewrite lookup_app_r, Nat.sub_diag by lia.
      * rewrite lookup_app_r by (rewrite app_length; cbn; lia). rewrite app_length. cbn [length].
        by replace (length b1 + 1 + k - (length b1 + 1)) with k by lia.
  - (* s1 is refused *)
    apply greedy_app in G3 as (b2 & r4 & r5 & G4 & G5 & ->).
    assert (¬ ok sys_pat b2 s2) as Hno.
    { intros Hok2. apply Hok1. apply (ok_iff sys_pat sys_pat_wf sys_pat_reg). intros x Hx.
      pose proof (proj1 (ok_iff sys_pat sys_pat_wf sys_pat_reg _ _) Hok2) as Hok2'.
      destruct (greedy_acc sys_pat _ _ _ _ G4) as (n & -> & Hp4 & _).
      assert (x ∈ b1 ++ n) as Hx2 by (apply elem_of_app; by left).
      destruct (Hok2' x Hx2) as [Hx3 Hx4]. split; [done|]. intros Hxc. apply Hx4. 
      destruct (greedy_acc sys_pat _ _ _ _ G1) as (m & Hm & Hpm & _). cbn in Hm. subst m.
      assert (x ∈ l1) as Hxl. { rewrite <- Hpm. apply elem_of_app. by left. }
      apply (Htr x s1 s2); [|done|done| |done|done].
      - rewrite Hss. apply elem_of_app. by left.
      - intros ->. rewrite Hss in Hnd. apply NoDup_app in Hnd as (_ & Hd & _). apply (Hd s2 Hxl).
        rewrite elem_of_cons, elem_of_app, elem_of_cons. naive_solver. }
    inversion G5 as [|? ? ? ? ? Hok2 G6|? ? ? ? r6 Hok2 G6]; subst; [done|].
    assert (s1 ∈ r1 ++ s1 :: r4 ++ s2 :: r6) as Hr1 by (rewrite elem_of_app, elem_of_cons; naive_solver).
    assert (s2 ∈ r1 ++ s1 :: r4 ++ s2 :: r6) as Hr2 by (rewrite elem_of_app, elem_of_cons, elem_of_app, elem_of_cons; naive_solver).
    intros k1 k2 c1 c2 Hk1 Hk2 Hc1 Hc2.
    destruct k1 as [|k1]; cbn in Hk1; [simplify_eq; by destruct (Hdisj s1 Hc1)|].
    destruct k2 as [|k2]; cbn in Hk2; [simplify_eq; by destruct (Hdisj s2 Hc2)|].
    enough (k1 < k2) by lia.
    refine (IH Hndr _ r1 r4 r6 eq_refl k1 k2 c1 c2 Hk1 Hk2 Hc1 Hc2).
    intros x y z Hx Hy Hz. apply Htr; by apply Hrin.
Qed.

Lemma one_pw n b c ok d : pw (sys_pat (Sysm n (one b c) ok)) d ↔ b = false ∧ d = c.
Proof.
  destruct (sys_pat_spec (Sysm n (one b c) ok)) as (_ & _ & _ & W & _). rewrite W. unfold sys_writes, one. cbn. split.
  - intros [(a & ->%elem_of_list_singleton & H)|H%elem_of_list_singleton]; [|done]. cbn in H.
    apply elem_of_list_singleton in H. by simplify_eq.
  - intros [-> ->]. left. eexists. split; [by left|]. cbn. by left.
Qed.
Lemma one_pr n b c ok d : pr (sys_pat (Sysm n (one b c) ok)) d ↔ d = c.
Proof.
  destruct (sys_pat_spec (Sysm n (one b c) ok)) as (_ & _ & _ & _ & R). rewrite R. unfold sys_reads, one. cbn. split.
  - intros (a & ->%elem_of_list_singleton & H). cbn in H. by apply elem_of_list_singleton in H.
  - intros ->. eexists. split; [by left|]. cbn. by left.
Qed.
Example C32_example :
  let ss := [writeA 1; writeB 2; writeA 3] in
  NoDup ss ∧ (∀ x y z, x ∈ ss → y ∈ ss → z ∈ ss → x ≠ z →
    conflict (sys_pat x) (sys_pat y) → conflict (sys_pat y) (sys_pat z) → conflict (sys_pat x) (sys_pat z)) ∧
  ss = [] ++ writeA 1 :: [writeB 2] ++ writeA 3 :: [] ∧ sys_conflict (writeA 1) (writeA 3) ∧
  batch_names ss = Some [[1; 2]; [3]].
Proof.
  cbn. split; [|split; [|split; [done|split]]].
  - repeat constructor; repeat setoid_rewrite elem_of_cons; rewrite ?elem_of_nil; naive_solver.
  - assert (∀ x : sysm, x ∈ [writeA 1; writeB 2; writeA 3] → ∃ n c H, x = Sysm n (one false c) H) as HH.
    { intros x Hx. repeat (apply elem_of_cons in Hx as [->|Hx]; [by eexists _, _, _|]). by apply elem_of_nil in Hx. }
    intros x y z Hx Hy Hz _. destruct (HH x Hx) as (n1 & c1 & H1 & ->). destruct (HH y Hy) as (n2 & c2 & H2 & ->).
    destruct (HH z Hz) as (n3 & c3 & H3 & ->). unfold conflict. repeat setoid_rewrite one_pw. repeat setoid_rewrite one_pr. naive_solver.
  - exists 0%N. left. split; [|left]; eexists; (split; [by left|]); cbn; by left.
  - by vm_compute.
Qed.

(** * C33 *)

Lemma interleave_perm {A} (ls : list (list A)) tr : interleave ls tr → tr ≡ₚ concat ls.
Proof.
  induction 1 as [ls Hnil|ls i x l tr Hi _ IH].
  - assert (concat ls = []) as ->; [|done]. induction Hnil as [|? ? -> _ IH]; [done|]. done.
  - rewrite IH. clear -Hi. revert i Hi. induction ls as [|l0 ls IHl]; intros i Hi; [done|]. destruct i as [|i]; cbn in *.
    + by simplify_eq.
    + rewrite <- (IHl i Hi). apply Permutation_middle.
Qed.
Lemma concat_singletons {A} (l : list A) : concat ((λ s, [s]) <$> l) = l.
Proof. induction l; cbn; congruence. Qed.

Lemma run_trace_perm {A} (main : list A) bs tr : run_trace main bs tr →
  tr ≡ₚ concat bs ++ concat (replicate (length bs) main).
Proof.
  induction 1 as [|b bs t1 t2 H1 _ IH]; [done|]. apply interleave_perm in H1. cbn in *. rewrite concat_singletons in H1.
  rewrite H1, IH. solve_Permutation.
Qed.

(** Every run of the executor of a stage executes every ordinary system exactly once, and every
    main-thread system once per batch. *)
Theorem C33_runs_partial (ss main : list sysm) :
  ∃ e, stage_create sys_pat (Stage ss main) = Some (e, Stage [] main) ∧
    (∃ tr, stage_trace e tr) ∧
    ∀ tr, stage_trace e tr → tr ≡ₚ ss ++ concat (replicate (length (se_batches e)) main).
Proof.
  destruct (C31_batches ss main) as (bs & H & Hp & _). exists (StageExec bs main). split; [done|]. split.
  - exists (concat ((λ b, main ++ b) <$> bs)). unfold stage_trace. cbn. clear. induction bs as [|b bs IH]; [constructor|].
    cbn. constructor; [|done]. unfold batch_trace. clear IH. induction main as [|m main IHm]; cbn.
    + induction b as [|x b IHb]; cbn; [by repeat constructor|]. apply (interleave_cons _ 1 x []); [done|]. cbn.
      assert (∀ (ls : list (list sysm)) tr, interleave ([] :: ls) tr → interleave ([] :: [] :: ls) tr) as Hins.
      { clear. intros ls tr H. remember ([] :: ls) as L eqn:EL. revert ls EL. induction H as [L Hf|L i x l tr Hi Ht IH]; intros ls ->.
        - constructor. by constructor.
        - destruct i as [|i]; [done|]. cbn in Hi. apply (interleave_cons _ (S (S i)) x l); [done|]. cbn. exact (IH (<[i := l]> ls) eq_refl). }
      by apply Hins.
    + by apply (interleave_cons _ 0 m main).
  - intros tr Ht%run_trace_perm. cbn in Ht. by rewrite Ht, Hp.
Qed.

(** A main-thread system runs twice when there are two batches, and not at all without ordinary systems. *)
Theorem C33_main_thread_refuted :
  (∀ tr e s', stage_create sys_pat (Stage [writeA 1; writeA 2] [cmdW 3]) = Some (e, s') → stage_trace e tr →
     tr ≡ₚ [writeA 1; writeA 2; cmdW 3; cmdW 3]) ∧
  (∀ tr e s', stage_create sys_pat (Stage [] [cmdW 3]) = Some (e, s') → stage_trace e tr → tr = []).
Proof.
  split; intros tr e s' He Ht.
  - destruct (C33_runs_partial [writeA 1; writeA 2] [cmdW 3]) as (e' & He' & _ & H). assert (e' = e) as -> by congruence.
    rewrite (H tr Ht). assert (length (se_batches e) = 2) as ->; [|done].
    assert ((λ r, length (se_batches r.1)) <$> stage_create sys_pat (Stage [writeA 1; writeA 2] [cmdW 3]) = Some 2) as Hc by (by vm_compute).
    rewrite He in Hc. cbn in Hc. congruence.
  - unfold stage_create in He. cbn in He. simplify_eq. by inversion Ht.
Qed.

Example C33_example : ∃ e, stage_create sys_pat (Stage [readA 1; readA 2] [cmdW 3]) = Some (e, Stage [] [cmdW 3]) ∧
  stage_trace e [readA 1; cmdW 3; readA 2] ∧ stage_trace e [readA 2; readA 1; cmdW 3].
Proof.
  destruct (C31_batches [readA 1; readA 2] [cmdW 3]) as (bs & He & Hp & _).
  exists (StageExec bs [cmdW 3]). split; [done|]. assert (bs = [[readA 1; readA 2]]) as ->.
  { assert (stage_batches sys_pat 2 [readA 1; readA 2] = Some [[readA 1; readA 2]]) as H by (by vm_compute).
    unfold stage_create in He. cbn [st_systems length] in He. rewrite H in He. cbn in He. congruence. }
  split; unfold stage_trace; cbn.
  - apply (rt_cons _ _ _ [readA 1; cmdW 3; readA 2] []); [|constructor]. unfold batch_trace.
    apply (interleave_cons _ 1 _ []); [done|]. apply (interleave_cons _ 0 _ []); [done|].
    apply (interleave_cons _ 2 _ []); [done|]. constructor. by repeat constructor.
  - apply (rt_cons _ _ _ [readA 2; readA 1; cmdW 3] []); [|constructor]. unfold batch_trace.
    apply (interleave_cons _ 2 _ []); [done|]. apply (interleave_cons _ 1 _ []); [done|].
    apply (interleave_cons _ 0 _ []); [done|]. constructor. by repeat constructor.
Qed.

(** * C34 *)

Section determinism.
Context {V L : Type}.

(** Bodies of systems: arbitrary programs that access only what the parameters give access to. *)
Context (body_of : sysm → body V L).
Hypothesis Hbody : ∀ s, respects (sys_reads (sy_args s)) (sys_writes (sy_args s)) (body_of s).

(** Every interleaving of the component accesses of the systems of a batch ends (no interleaving is longer
    than running them one after another) and ends in the world reached by running them one after another,
    with the same local states. *)
Theorem C34_deterministic (ss main : list sysm) e s' b (ls ls' : list L) (w w' : gmap N V) :
  stage_create sys_pat (Stage ss main) = Some (e, s') → b ∈ se_batches e →
  run_in_order (body_of <$> b) ls w ls' w' →
  ∃ n, ∀ k c, nsteps (par_step (body_of <$> b)) k (ls, w) c →
    k ≤ n ∧ nsteps (par_step (body_of <$> b)) (n - k) c (ls', w') ∧
    (finished (body_of <$> b) c ↔ c = (ls', w')).
Proof.
  intros Hc Hb Hrun. destruct (C31_batches ss main) as (bs & Hc' & _ & Hbs).
  assert (se_batches e = bs) as Hebs by (rewrite Hc in Hc'; by simplify_eq). rewrite Hebs in Hb.
  destruct (Hbs b Hb) as (_ & _ & Hnc).
  set (acc := (λ s, (sys_reads (sy_args s), sys_writes (sy_args s))) <$> b).
  assert (∀ (i : nat) (rw : access_sets), acc !! i = Some rw → ∃ s, b !! i = Some s ∧ rw = (sys_reads (sy_args s), sys_writes (sy_args s))) as Hacc.
  { intros i rw Hi. unfold acc in Hi. rewrite list_lookup_fmap in Hi. apply fmap_Some in Hi as (s & Hs & ->). by exists s. }
  apply (interleaving_deterministic _ acc); [unfold acc; by rewrite !fmap_length| | | | |done].
  - intros i rw c Hi. destruct (Hacc i rw Hi) as (s & Hs & ->). cbn. clear.
    unfold sys_writes. induction (sy_args s) as [|a l IH]; [right; intros (a & Ha & _); by apply elem_of_nil in Ha|].
    assert (Decision (arg_writes a c)) as [Hd|Hd] by (destruct a; cbn; apply _).
    + left. exists a. split; [by left|done].
    + destruct IH as [(x & Hx & Hxc)|IH]; [left; exists x; split; [by right|done]|].
      right. intros (x & [->|Hx]%elem_of_cons & Hxc); [done|]. apply IH. by exists x.
  - intros i rw c Hi. destruct (Hacc i rw Hi) as (s & Hs & ->). cbn. apply writes_reads.
  - intros i f rw Hf Hi. destruct (Hacc i rw Hi) as (s & Hs & ->).
    rewrite list_lookup_fmap, Hs in Hf. cbn in Hf. apply (inj Some) in Hf as <-. apply Hbody.
  - intros i j rw1 rw2 Hij Hi Hj. destruct (Hacc i rw1 Hi) as (s1 & Hs1 & ->). destruct (Hacc j rw2 Hj) as (s2 & Hs2 & ->).
    assert (¬ sys_conflict s1 s2) as Hn.
    { destruct (decide (i < j)); [by apply (Hnc i j)|]. assert (¬ sys_conflict s2 s1) as H by (apply (Hnc j i); [lia|done|done]).
      intros (c & Hcc). apply H. exists c. naive_solver. }
    intros c. cbn. split; intros [H1 H2]; apply Hn; exists c; [left|right]; naive_solver.
Qed.
End determinism.

(** Bodies for the example: each system adds its name to the column of every component in turn, where the
    local state is the list of components still to be visited; the last one also reads. *)
Definition add_body (s : sysm) : body nat (list N) := λ l w,
  match l with
  | [] => None
  | c :: l => Some (l, match sy_args s with
                       | [ArgView [(false, c')]] => if decide (c = c') then <[c := default 0 (w !! c) + sy_name s]> w else w
                       | _ => w
                       end)
  end.
Local Ltac gm := apply (bool_decide_unpack _); vm_compute; exact I.
Example C34_example :
  (∀ s, respects (sys_reads (sy_args s)) (sys_writes (sy_args s)) (add_body s)) ∧
  ∃ e s', stage_create sys_pat (Stage [writeA 1; writeB 2] []) = Some (e, s') ∧ [writeA 1; writeB 2] ∈ se_batches e ∧
    run_in_order (add_body <$> [writeA 1; writeB 2]) [[0%N; 0%N]; [1%N]] ∅ [[]; []] {[0%N := 2; 1%N := 2]} ∧
    (** a proper interleaving *)
    nsteps (par_step (add_body <$> [writeA 1; writeB 2])) 2 ([[0%N; 0%N]; [1%N]], ∅) ([[0%N]; []], {[0%N := 1; 1%N := 2]}).
Proof.
  split.
  { intros s. unfold add_body. split.
    - intros [|c l] w l' w' d H Hd; [done|]. simplify_eq. destruct (sy_args s) as [|[| | |[|[[] c'] []]] []] eqn:E; try done.
      case_decide as Hc; [|done]. subst c'. apply lookup_insert_ne. intros ->. apply Hd.
      eexists. split; [by left|]. cbn. by left.
    - intros [|c l] w1 w2 H; [done|]. split; [done|]. intros d Hd.
      destruct (sy_args s) as [|[| | |[|[[] c'] []]] []] eqn:E; try by apply H.
      case_decide as Hc; [|by apply H]. subst c'. assert (c = d) as ->.
      { destruct Hd as (a & ->%elem_of_list_singleton & Hd). cbn in Hd. by apply elem_of_list_singleton in Hd. }
      rewrite !lookup_insert, H; [done|]. done. }
  destruct (C31_batches [writeA 1; writeB 2] []) as (bs & He & Hp & _).
  eexists _, _. split; [exact He|]. cbn [se_batches]. assert (bs = [[writeA 1; writeB 2]]) as ->.
  { assert (stage_batches sys_pat 2 [writeA 1; writeB 2] = Some [[writeA 1; writeB 2]]) as H by (by vm_compute).
    unfold stage_create in He. cbn [st_systems length] in He. rewrite H in He. cbn in He. congruence. }
  split; [by left|]. split.
  - apply (ro_cons _ _ _ _ _ [] {[0%N := 2]}); [|apply (ro_cons _ _ _ _ _ [] {[0%N := 2; 1%N := 2]}); [|constructor]].
    + apply (ra_step _ _ _ [0%N] {[0%N := 1]}); [gm|]. apply (ra_step _ _ _ [] {[0%N := 2]}); [gm|]. by apply ra_done.
    + apply (ra_step _ _ _ [] {[0%N := 2; 1%N := 2]}); [gm|]. by apply ra_done.
  - apply (nsteps_l _ _ _ ([[0%N]; [1%N]], {[0%N := 1]})).
    { apply (par_step_i _ 0 (add_body (writeA 1)) [0%N; 0%N] [0%N] [[0%N; 0%N]; [1%N]]); [done|done|gm]. }
    apply (nsteps_l _ _ _ ([[0%N]; []], {[0%N := 1; 1%N := 2]})); [|constructor].
    apply (par_step_i _ 1 (add_body (writeB 2)) [1%N] [] [[0%N]; [1%N]]); [done|done|gm].
Qed.

(** * C35 *)

(** A run of a stage: its ordinary systems once each, its main-thread systems some number of times, nothing else.  That
    number is at most the number of ordinary systems, and 0 only if there is none. *)
Definition stage_run (s : stage sysm) (t : list sysm) : Prop :=
  ∃ n, t ≡ₚ st_systems s ++ concat (replicate n (st_main s)) ∧ n ≤ length (st_systems s) ∧ (n = 0 → st_systems s = []).

Lemma stage_runs_count (ss main : list sysm) : ∃ e, stage_create sys_pat (Stage ss main) = Some (e, Stage [] main) ∧
  ∀ t, stage_trace e t → stage_run (Stage ss main) t.
Proof.
  destruct (C33_runs_partial ss main) as (e & He & _ & H). exists e. split; [done|]. intros t Ht. exists (length (se_batches e)).
  split; [by apply H|]. destruct (C31_batches ss main) as (bs & Hb & Hp & Hne). rewrite He in Hb. injection Hb as ->. cbn.
  assert (length bs ≤ length (concat bs)) as Hle.
  { assert (∀ b, b ∈ bs → b ≠ []) as Hn by (intros b Hin; by destruct (Hne b Hin)). clear -Hn.
    induction bs as [|b bs IH]; [done|]. cbn. rewrite app_length.
    assert (b ≠ []) as Hb by (apply Hn; left). assert (length bs ≤ length (concat bs)) as Hl by (apply IH; intros c Hc; apply Hn; by right).
    destruct b; [done|]. cbn. lia. }
  split; [by rewrite <-Hp|]. destruct bs; [|done]. intros _. by apply Permutation_nil in Hp.
Qed.

(** For every schedule and every number of runs: the systems of the initial stage run once, before
    everything else, and a flush follows before any other system runs; after that there is one
    segment per [run_once], consisting of the runs of the stages in their order and ended by a flush. *)
Theorem C35_schedule (sc : schedule sysm) :
  ∃ x sc', sched_create sys_pat sc = Some (x, sc') ∧
    ∀ n tr, sched_trace x n tr →
      ∃ init (runs : list (list (list sysm))),
        tr = (Run <$> init) ++ [Flush] ++ concat ((λ r, (Run <$> concat r) ++ [Flush]) <$> runs) ∧
        stage_run (sc_init sc) init ∧ length runs = n ∧ Forall (Forall2 stage_run (sc_stages sc)) runs.
Proof.
  unfold sched_create.
  destruct (mapM_total (stage_create sys_pat) (λ s r, r.2 = Stage [] (st_main s) ∧ ∀ t, stage_trace r.1 t → stage_run s t) (sc_stages sc)) as (es & Hes & HQ).
  { intros [ss main] _. destruct (stage_runs_count ss main) as (e & He & H). exists (e, Stage [] main). by split. }
  rewrite Hes. cbn [mbind option_bind]. destruct sc as [[iss imain] stages]. cbn [sc_init sc_stages] in *.
  destruct (stage_runs_count iss imain) as (e & He & Hi). rewrite He. cbn [mbind option_bind fst snd].
  eexists _, _. split; [done|]. intros n tr Ht.
  induction Ht as [t Ht|n tr t _ IH Hr].
  - exists t, []. cbn in *. split; [done|]. split; [|by split; [|constructor]]. by apply Hi.
  - destruct IH as (init & runs & -> & Hinit & <- & Hall). destruct Hr as (u & Hu & ->). cbn [xe_stages] in Hu.
    assert (∃ r, u = concat r ∧ Forall2 stage_run stages r) as (r & -> & Hr).
    { clear -HQ Hu. remember (es.*1) as xs eqn:Exs. revert stages es Exs HQ. induction Hu as [|e xs t1 t2 H1 _ IH]; intros stages es Exs HQ.
      - destruct es; [|done]. apply Forall2_nil_inv_r in HQ as ->. exists []. split; [done|constructor].
      - destruct es as [|e0 es]; [done|]. cbn in Exs. simplify_eq. apply Forall2_cons_inv_r in HQ as (s & stages' & [_ Hs] & HQ & ->).
        destruct (IH stages' es eq_refl HQ) as (r & -> & Hr). exists (t1 :: r). split; [done|]. constructor; [by apply Hs|done]. }
    exists init, (runs ++ [r]). rewrite fmap_app, concat_app, app_length. cbn. rewrite app_nil_r. split; [by rewrite <- !app_assoc|].
    split; [done|]. split; [lia|]. apply Forall_app. split; [done|by constructor].
Qed.

(** Main-thread initialization systems never run if there is no other initialization system, whatever the schedule and the
    number of runs; with others they can run several times. *)
Theorem C35_main_init_refuted :
  (∀ m stages x sc' n tr, sched_create sys_pat (Schedule (Stage [] m) stages) = Some (x, sc') → sched_trace x n tr →
     ∃ runs, tr = Flush :: concat ((λ r, (Run <$> concat r) ++ [Flush]) <$> runs) ∧ length runs = n ∧ Forall (Forall2 stage_run stages) runs) ∧
  (∀ x sc' tr, sched_create sys_pat (Schedule (Stage [writeA 1; writeA 2] [cmdW 3]) []) = Some (x, sc') → sched_trace x 0 tr →
     tr ≡ₚ [Run (writeA 1); Run (writeA 2); Run (cmdW 3); Run (cmdW 3); Flush]).
Proof.
  split.
  - intros m stages x sc' n tr Hc Ht. destruct (C35_schedule (Schedule (Stage [] m) stages)) as (x1 & sc1 & Hc1 & H).
    rewrite Hc in Hc1. injection Hc1 as <- <-. destruct (H n tr Ht) as (init & runs & -> & (k & Hi & Hk & _) & Hl & Hf).
    cbn in Hi, Hk. assert (k = 0) as -> by lia. cbn in Hi. symmetry in Hi. apply Permutation_nil in Hi as ->. by exists runs.
  - intros x sc' tr Hc Ht. inversion Ht as [t Hst|]; subst. unfold sched_create in Hc. cbn [sc_stages mapM mbind option_bind] in Hc.
    cbn [mret option_ret] in Hc. destruct (stage_create sys_pat (sc_init _)) as [[e s']|] eqn:He; [|done]. cbn in Hc. injection Hc as <- <-.
    cbn in Hst, He. rewrite (proj1 C33_main_thread_refuted t e s' He Hst). done.
Qed.

Lemma interleave_exists {A} (ls : list (list A)) : ∃ tr, interleave ls tr.
Proof.
  remember (length (concat ls)) as n eqn:Hn. revert ls Hn. induction n as [|n IH]; intros ls Hn.
  - exists []. constructor. apply Forall_forall. intros l Hl. apply elem_of_list_split in Hl as (l1 & l2 & ->).
    rewrite concat_app in Hn. cbn in Hn. rewrite !app_length in Hn. destruct l; [done|]. cbn in Hn. lia.
  - assert (∃ (i : nat) x l, ls !! i = Some (x :: l)) as (i & x & l & Hi).
    { clear -Hn. induction ls as [|[|x l] ls IHl]; [done| |].
      - destruct (IHl Hn) as (i & x & l & Hi). by exists (S i), x, l.
      - by exists 0, x, l. }
    destruct (IH (<[i := l]> ls)) as (tr & Ht).
    { assert (length (concat ls) = S (length (concat (<[i := l]> ls)))); [|lia]. clear -Hi. revert i Hi.
      induction ls as [|l0 ls IHl]; intros i Hi; [done|]. destruct i as [|i]; cbn in *; [by simplify_eq|].
      rewrite !app_length, (IHl i Hi). apply Nat.add_succ_r. }
    exists (x :: tr). by eapply interleave_cons.
Qed.
Lemma stage_trace_exists (e : stage_exec sysm) : ∃ tr, stage_trace e tr.
Proof.
  destruct e as [bs main]. unfold stage_trace. cbn. induction bs as [|b bs (t2 & IH)]; [exists []; constructor|].
  destruct (interleave_exists (main :: ((λ s, [s]) <$> b))) as [t1 H1]. exists (t1 ++ t2). by constructor.
Qed.

(** Every executor can be run any number of times. *)
Theorem C35_runs_exist (x : sched_exec sysm) n : ∃ tr, sched_trace x n tr.
Proof.
  induction n as [|n (tr & IH)].
  - destruct (stage_trace_exists (xe_init x)) as [t Ht]. eexists. by constructor.
  - assert (∃ u, stages_trace (xe_stages x) u) as [u Hu].
    { induction (xe_stages x) as [|e es (t2 & H2)]; [exists []; constructor|].
      destruct (stage_trace_exists e) as [t1 H1]. exists (t1 ++ t2). by constructor. }
    eexists. eapply sct_run; [exact IH|]. by exists u.
Qed.

Example C35_example : ∃ x sc', sched_create sys_pat (Schedule (Stage [ownReg 0] []) [Stage [writeA 1] []; Stage [readA 2] []]) = Some (x, sc') ∧
  sched_trace x 1 [Run (ownReg 0); Flush; Run (writeA 1); Run (readA 2); Flush].
Proof.
  destruct (sched_create sys_pat (Schedule (Stage [ownReg 0] []) [Stage [writeA 1] []; Stage [readA 2] []])) as [[x sc']|] eqn:E; [|by vm_compute in E].
  exists x, sc'. split; [done|]. unfold sched_create in E. cbn [sc_stages sc_init mapM] in E.
  assert (∀ s, stage_create sys_pat (Stage [s] []) = Some (StageExec [[s]] [], Stage [] [])) as H1.
  { intros s. destruct (C31_batches [s] []) as (bs & -> & Hp & Hb). do 3 f_equal.
    destruct bs as [|b bs]; [by apply Permutation_nil in Hp|]. destruct b as [|y b]; [by destruct (Hb [] (elem_of_list_here _ _)) as [[] _]|].
    cbn in Hp. symmetry in Hp. apply Permutation_singleton_l in Hp. destruct b; [|done]. cbn in Hp. injection Hp as -> Hcat.
    destruct bs as [|b bs]; [done|]. destruct b; [|done]. by destruct (Hb []) as [[] _]; [right; left|]. }
  rewrite !H1 in E. cbn in E. simplify_eq.
  assert (∀ s : sysm, stage_trace (StageExec [[s]] []) [s]) as H2.
  { intros s. apply (rt_cons _ _ _ [s] []); [|constructor]. apply (interleave_cons _ 1 _ []); [done|]. constructor. by repeat constructor. }
  apply (sct_run _ 0 [Run (ownReg 0); Flush]).
  - apply (sct_ctor _ [ownReg 0]). apply H2.
  - exists [writeA 1; readA 2]. split; [|done]. apply (sst_cons _ _ [writeA 1]); [apply H2|]. apply (sst_cons _ _ [readA 2] []); [apply H2|constructor].
Qed.

(** * C48: main-thread systems are not part of the access check *)
Theorem C48_main_thread_conflict_refuted :
  ∃ e, stage_create sys_pat (Stage [writeA 1] [writeA 2]) = Some (e, Stage [] [writeA 2]) ∧
    (** while the batch runs, the main thread runs system 2: both orders are possible *)
    stage_trace e [writeA 1; writeA 2] ∧ stage_trace e [writeA 2; writeA 1] ∧ sys_conflict (writeA 1) (writeA 2).
Proof.
  destruct (C31_batches [writeA 1] [writeA 2]) as (bs & He & Hp & _). exists (StageExec bs [writeA 2]). split; [done|].
  assert (bs = [[writeA 1]]) as ->.
  { assert (stage_batches sys_pat 1 [writeA 1] = Some [[writeA 1]]) as H by (by vm_compute).
    unfold stage_create in He. cbn [st_systems length] in He. rewrite H in He. cbn in He. congruence. }
  split; [|split].
  - apply (rt_cons _ _ _ [writeA 1; writeA 2] []); [|constructor]. apply (interleave_cons _ 1 _ []); [done|].
    apply (interleave_cons _ 0 _ []); [done|]. constructor. by repeat constructor.
  - apply (rt_cons _ _ _ [writeA 2; writeA 1] []); [|constructor]. apply (interleave_cons _ 0 _ []); [done|].
    apply (interleave_cons _ 1 _ []); [done|]. constructor. by repeat constructor.
  - exists 0%N. left. split; [|left]; eexists; (split; [by left|]); cbn; by left.
Qed.

(** * C49: a command writer reserves handles of the registry, yet may share a batch with its owner *)
Theorem C49_commands_beside_owner_refuted : batch_names [cmdW 1; ownReg 2] = Some [[1; 2]].
Proof. by vm_compute. Qed.
(** In the other order they are separated. *)
Theorem C49_owner_first_partial (s : sysm) ss main b bs :
  ArgRegistry ∈ sy_args s → stage_create sys_pat (Stage (s :: ss) main) = Some (StageExec (b :: bs) main, Stage [] main) → b = [s].
Proof.
  intros Ho Hc. destruct (stage_batches_spec sys_pat sys_pat_wf (length (s :: ss)) (s :: ss)) as (bs' & Hbs & Hb); [done|].
  unfold stage_create in Hc. cbn [st_systems st_main] in Hc. rewrite Hbs in Hc. cbn in Hc. simplify_eq.
  pose proof (batched_pairwise sys_pat sys_pat_wf sys_pat_reg _ _ Hb) as H4. apply Forall_cons in H4 as [H4 _].
  inversion Hb as [|? ? ? r ? G]; subst. destruct (greedy_progress sys_pat sys_pat_wf _ _ _ _ G) as [_ [n ->]].
  destruct n as [|y n]; [done|]. destruct (H4 0 1 s y) as [Hno _]; [lia|done|done|]. exfalso. apply Hno.
  destruct (sys_pat_spec s) as (_ & Hwf & Hr & Hw & _). unfold owns.
  set (d := dom (sm_abs (ap_comp (sys_pat s)))). assert (pw (sys_pat s) (fresh d)) as [Hp|Hp]; [|done|].
  { apply Hw. left. by exists ArgRegistry. }
  exfalso. apply (is_fresh d). unfold d. apply elem_of_dom. by eexists.
Qed.

Example C49_example : ArgRegistry ∈ sy_args (ownReg 2) ∧ batch_names [ownReg 2; cmdW 1] = Some [[2]; [1]].
Proof. split; [by left|by vm_compute]. Qed.

(** * C50: creating a second executor *)

(** The first executor takes the ordinary systems away: a second one runs nothing at all, not even the
    main-thread systems. *)
Theorem C50_second_executor_refuted (ss main : list sysm) :
  ∃ e s' e' s'', stage_create sys_pat (Stage ss main) = Some (e, s') ∧ stage_create sys_pat s' = Some (e', s'') ∧
    ∀ tr, stage_trace e' tr → tr = [].
Proof.
  destruct (C31_batches ss main) as (bs & He & _). eexists _, _, _, _. split; [exact He|]. split; [done|].
  intros tr Ht. by inversion Ht.
Qed.

Print Assumptions C30_no_conflict.
Print Assumptions C30_exact.
Print Assumptions C30_registry_read_refuted.
Print Assumptions C31_batches.
Print Assumptions C31_partition_any_patterns.
Print Assumptions C31_registry_read_refuted.
Print Assumptions C32_order_refuted.
Print Assumptions C32_writers_refuted.
Print Assumptions C32_order_partial.
Print Assumptions C33_runs_partial.
Print Assumptions C33_main_thread_refuted.
Print Assumptions C34_deterministic.
Print Assumptions C35_schedule.
Print Assumptions C35_main_init_refuted.
Print Assumptions C35_runs_exist.
Print Assumptions C48_main_thread_conflict_refuted.
Print Assumptions C49_commands_beside_owner_refuted.
Print Assumptions C49_owner_first_partial.
Print Assumptions C50_second_executor_refuted.
