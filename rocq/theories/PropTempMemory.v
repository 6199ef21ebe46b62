(** C94: memory of containers that use the temporary allocator. *)
From Verif Require Import Base Bits Allocators PropAlloc TempMemory.
Ltac Zify.zify_post_hook ::= Z.div_mod_to_equations.
Local Open Scope N_scope.

(** * Specification *)

(** A call that the language allows: at least one worker, a type with a size and an alignment, stores
    inside the batches. *)
Inductive call_ok : pcall → Prop :=
  | call_ok_intro n tsize talign stores nested :
      0 < n * tsize → n * tsize < 2 ^ 64 → pow2 talign → talign < 256 →
      Forall (λ st, st.1 < n * tsize) stores → Forall call_ok nested →
      call_ok (PCall n tsize talign stores nested).

(** The blocks of the running calls are inside the buffer and do not overlap. *)
Definition blocks_ok (start size : N) (s : tconf) : Prop :=
  Forall (λ b, inside b.1 start size) s.2 ∧
  (∀ (i j : nat) b c, (i < j)%nat → s.2 !! i = Some b → s.2 !! j = Some c → disjoint_blocks b.1 c.1).

(** The memory of the calls running in [s] is the same in [v]. *)
Definition kept (s v : tconf) : Prop :=
  ∀ b x, b ∈ s.2 → in_block x b.1 → sa_mem v.1 !! x = sa_mem s.1 !! x.

(** * Proofs *)

Lemma pcall_induction (P : pcall → Prop) :
  (∀ n tsize talign stores nested, Forall P nested → P (PCall n tsize talign stores nested)) → ∀ c, P c.
Proof.
  intros H. fix IH 1. intros [n tsize talign stores nested]. apply H.
  induction nested as [|c cs IHl]; constructor; [apply IH|apply IHl].
Qed.

Lemma run_call_unfold n tsize talign stores nested s :
  run_call (PCall n tsize talign stores nested) s = call_with (run_calls nested) n tsize talign stores s.
Proof. reflexivity. Qed.

Lemma inv_blocks_ok start size s : real_buffer start size → sa_inv start size s → blocks_ok start size s.
Proof.
  intros Hb (H1 & H2 & H3 & H4). split.
  - apply Forall_forall. intros b Hbb. pose proof (offsets_below _ _ _ _ b H4 Hbb). unfold inside. lia.
  - intros i j b c Hij Hi Hj x [Hx _] [_ Hx']. pose proof (offsets_disjoint _ _ _ _ i j b c H4 Hij Hi Hj). lia.
Qed.

Lemma pokes_inv start size p n off bs stores : ∀ l : stack,
  real_buffer start size → sa_inv start size (l, (p, n, off) :: bs) → Forall (λ st : N * N, st.1 < n) stores →
  let l' := foldl (λ (l : stack) (st : N * N), sa_poke l (p + st.1) st.2) l stores in
  sa_inv start size (l', (p, n, off) :: bs) ∧ sa_offset l' = sa_offset l ∧
  ∀ x, x < p → sa_mem l' !! x = sa_mem l !! x.
Proof.
  induction stores as [|st stores IH]; intros l Hb Hinv Hst; cbn [foldl]; [done|].
  apply Forall_cons in Hst as [H Hst].
  assert (sa_inv start size (sa_poke l (p + st.1) st.2, (p, n, off) :: bs)) as Hinv'.
  { apply (sa_step_inv start size (l, (p, n, off) :: bs) (SWrite 0 st.1 st.2)); [done|done|done|done|].
    cbn [sa_step snd fst lookup list_lookup]. destruct (N.ltb_spec st.1 n); [done|lia]. }
  destruct (IH _ Hb Hinv' Hst) as (A & B & C). split; [done|]. split; [by rewrite B|].
  intros x Hx. rewrite C by done. cbn [sa_mem sa_poke]. rewrite lookup_insert_ne by lia. done.
Qed.

(** What holds in the states of a call that starts in [s]. *)
Definition during (start size : N) (s v : tconf) : Prop :=
  sa_inv start size v ∧ (∃ own, v.2 = own ++ s.2) ∧
  ∀ x, x < start + sa_offset s.1 → sa_mem v.1 !! x = sa_mem s.1 !! x.

Definition fine (start size : N) (c : pcall) : Prop :=
  ∀ s vs r, sa_inv start size s → call_ok c → run_call c s = (vs, r) →
    Forall (λ v : tconf, sa_remaining v.1 ≠ 0) (s :: vs) →
    Forall (during start size s) vs ∧
    ∃ s', r = Some s' ∧ during start size s s' ∧ sa_offset s'.1 = sa_offset s.1 ∧ s'.2 = s.2 ∧
      sa_remaining s'.1 ≠ 0.

Lemma during_trans start size s1 s2 v :
  during start size s1 s2 → sa_offset s1.1 <= sa_offset s2.1 → during start size s2 v → during start size s1 v.
Proof.
  intros (A & [o1 B] & C) Hle (D & [o2 E] & F). split; [done|]. split.
  - exists (o2 ++ o1). by rewrite E, B, app_assoc.
  - intros x Hx. rewrite F by lia. by apply C.
Qed.

Lemma calls_fine start size cs : Forall (fine start size) cs → ∀ s vs r,
  sa_inv start size s → Forall call_ok cs → run_calls cs s = (vs, r) →
  Forall (λ v : tconf, sa_remaining v.1 ≠ 0) (s :: vs) →
  Forall (during start size s) vs ∧
  ∃ s', r = Some s' ∧ during start size s s' ∧ sa_offset s'.1 = sa_offset s.1 ∧ s'.2 = s.2 ∧
    sa_remaining s'.1 ≠ 0.
Proof.
  induction cs as [|c cs IH]; intros Hf s vs r Hinv Hok Hrun Hnf; cbn [run_calls] in Hrun.
  - injection Hrun as <- <-. split; [constructor|]. exists s. apply Forall_cons in Hnf as [Hnf _].
    repeat split; try done; try apply Hinv. by exists [].
  - apply Forall_cons in Hf as [Hc Hf]. apply Forall_cons in Hok as [Hokc Hok].
    destruct (run_call c s) as [vs1 r1] eqn:E1.
    destruct r1 as [s1|].
    + destruct (run_calls cs s1) as [ws r2] eqn:E2. injection Hrun as <- <-.
      apply Forall_cons in Hnf as [Hnf Hnf']. apply Forall_app in Hnf' as [Hn1 Hn2].
      destruct (Hc s vs1 (Some s1) Hinv Hokc E1) as (A & s1' & [= <-] & D & O & L & R); [by constructor|].
      destruct (IH Hf s1 ws r2) as (A' & s' & -> & D' & O' & L' & R'); [apply D|done|done|by constructor|].
      split.
      * apply Forall_app. split; [done|]. eapply Forall_impl; [exact A'|]. intros v Hv.
        eapply during_trans; [exact D|lia|exact Hv].
      * exists s'. split; [done|]. split; [eapply during_trans; [exact D|lia|exact D']|].
        split; [lia|]. split; [congruence|done].
    + injection Hrun as <- <-. destruct (Hc s vs1 None Hinv Hokc E1 Hnf) as (_ & s' & [=] & _).
Qed.

Lemma call_fine start size c : real_buffer start size → fine start size c.
Proof.
  intros Hb. induction c as [n tsize talign stores nested IH] using pcall_induction.
  intros s vs r Hinv Hok Hrun Hnf. inversion Hok as [? ? ? ? ? Hpos Hlt Hp2 Hal Hst Hns]; subst.
  rewrite run_call_unfold in Hrun. unfold call_with, temp_allocate in Hrun.
  assert ((n * tsize) mod size_mod = n * tsize) as Hmod by (apply N.mod_small; exact Hlt).
  rewrite Hmod in Hrun.
  apply Forall_cons in Hnf as [Hnf Hnf'].
  pose proof (sa_alloc_inv start size s (n * tsize) talign Hb Hp2 Hal Hnf Hinv) as Ha.
  destruct (sa_allocate s.1 (n * tsize) talign) as [l [p|]] eqn:E.
  2: { destruct Ha as [-> _]. injection Hrun as <- <-. split; [constructor|]. exists s.
       rewrite <-surjective_pairing. repeat split; try done; try apply Hinv. by exists []. }
  destruct Ha as (Hinv1 & Hap & Hin & Htop & Hoff).
  assert (∀ x, x < start + sa_offset s.1 → sa_mem l !! x = sa_mem s.1 !! x) as Hmem.
  { unfold sa_allocate in E. destruct (std_align _ _ _ _) as [q|] eqn:Eq; [|discriminate].
    injection E as <- ->. intros x Hx. cbn [sa_mem]. rewrite lookup_insert_ne by lia. done. }
  destruct (pokes_inv start size p (n * tsize) (sa_offset s.1) s.2 stores l Hb Hinv1 Hst) as (Hinv2 & Hoff2 & Hmem2).
  set (l1 := foldl (λ (l : stack) (st : N * N), sa_poke l (p + st.1) st.2) l stores) in *.
  set (s1 := (l1, (p, n * tsize, sa_offset s.1) :: s.2) : tconf) in *. cbv zeta in Hrun.
  assert (during start size s s1) as D1.
  { split; [done|]. split; [by exists [(p, n * tsize, sa_offset s.1)]|]. intros x Hx. cbn [fst s1].
    rewrite Hmem2 by lia. by apply Hmem. }
  assert (sa_offset s.1 <= sa_offset s1.1) as Hle by (cbn [fst s1]; lia).
  destruct (run_calls nested s1) as [ws r1] eqn:E1.
  assert (Forall (λ v : tconf, sa_remaining v.1 ≠ 0) (s1 :: ws)) as Hnf1.
  { destruct r1 as [s2|]; [destruct (sa_deallocate s2.1 p)|]; injection Hrun as <- _; [|done|done].
    apply Forall_cons in Hnf' as [? Hnf']. apply Forall_app in Hnf' as [? _]. by constructor. }
  destruct (calls_fine start size nested IH s1 ws r1 Hinv2 Hns E1 Hnf1) as (A & s2 & -> & D2 & O2 & L2 & R2).
  assert (s2.2 = (p, n * tsize, sa_offset s.1) :: s.2) as Hs2 by done.
  destruct (sa_free_inv start size s2 (p, n * tsize, sa_offset s.1) s.2 Hb ltac:(apply D2) Hs2) as (l' & El & Hinv3 & O3).
  { cbn [fst]. unfold inside in Hin. cbn [fst snd] in Hin. lia. }
  cbn [fst] in El. rewrite El in Hrun. injection Hrun as <- <-. rewrite Hs2 in *. cbn [tail] in *.
  assert (during start size s (l', s.2)) as D3.
  { split; [done|]. split; [by exists []|]. intros x Hx. cbn [fst].
    unfold sa_deallocate in El. destruct (negb _); [discriminate|].
    destruct (sa_mem s2.1 !! (p - 1)) as [pad|]; [|discriminate]. cbn in El. injection El as <-. cbn [sa_mem].
    destruct D2 as (_ & _ & D2). rewrite D2 by lia. by apply D1. }
  split.
  - constructor; [done|]. apply Forall_app. split; [|by constructor].
    eapply Forall_impl; [exact A|]. intros v Hv. eapply during_trans; [exact D1|done|exact Hv].
  - eexists. split; [done|]. split; [done|]. cbn [fst snd] in *. split; [done|]. split; [done|].
    unfold sa_remaining in *. destruct Hinv as (_ & V & _). destruct Hinv3 as (_ & V' & _). cbn [fst snd] in *. congruence.
Qed.

(** * Theorems *)

(** Calls of [parallel_for] that nest on a thread, however deep, on a thread whose allocator is in any
    state that its users can bring about: in each state the calls go through, the memory of the running calls is
    inside the buffer and does not overlap, and the memory of the calls that run already is
    unchanged; at the end the allocator is where it was.  The restriction to a buffer that is not
    completely full is the one of C45. *)
Theorem C94_nested_partial start size s c vs r :
  real_buffer start size → sa_reach start size s → call_ok c → run_call c s = (vs, r) →
  Forall (λ v : tconf, sa_remaining v.1 ≠ 0) (s :: vs) →
  Forall (λ v, blocks_ok start size v ∧ kept s v ∧ ∃ own, v.2 = own ++ s.2) vs ∧
  ∃ s', r = Some s' ∧ sa_remaining s'.1 = sa_remaining s.1 ∧ s'.2 = s.2 ∧ kept s s'.
Proof.
  intros Hb Hr Hok Hrun Hnf. pose proof (sa_reach_inv _ _ _ Hb Hr) as Hinv.
  destruct (call_fine start size c Hb s vs r Hinv Hok Hrun Hnf) as (A & s' & -> & D & O & L & _).
  assert (∀ v, during start size s v → kept s v) as Hk.
  { intros v (_ & _ & Hm) b x Hbb [Hx1 Hx2]. apply Hm. destruct Hinv as (_ & _ & _ & H4).
    pose proof (offsets_below _ _ _ _ b H4 Hbb). lia. }
  split.
  - eapply Forall_impl; [exact A|]. intros v Hv. split; [by apply inv_blocks_ok, Hv|]. split; [by apply Hk|]. apply Hv.
  - exists s'. split; [done|]. split; [|split; [done|by apply Hk]].
    unfold sa_remaining. destruct D as ((_ & -> & _) & _). destruct Hinv as (_ & -> & _). by rewrite O.
Qed.

(** A vector that grows does not own its memory: whatever its element type and wherever the allocator is, the
    next request with the same alignment gets the address of the vector's old memory and overlaps the
    vector's new memory as soon as it is longer than the old memory and the alignment together, provided there
    is room for it. *)
Theorem C94_growth_refuted start size s n1 n2 tsize a n l1 p1 l2 p2 :
  real_buffer start size → sa_reach start size s → pow2 a → a < 256 → 0 < n1 * tsize → 0 < n2 * tsize →
  n1 * tsize < 2 ^ 64 → n2 * tsize < 2 ^ 64 →
  sa_remaining s.1 ≠ 0 → sa_remaining l1 ≠ 0 →
  vector_grow s.1 None n1 tsize a = Some (l1, Some p1) →
  vector_grow l1 (Some p1) n2 tsize a = Some (l2, Some p2) →
  n1 * tsize + a < n → inside (p1, n) start size →
  ∃ l, sa_allocate l2 n a = (l, Some p1) ∧ ¬ disjoint_blocks (p1, n) (p2, n2 * tsize).
Proof.
  intros Hb Hr Hp2 Ha Hn1 Hn2 Hm1 Hm2 Hnf Hnf1 E1 E2 Hn Hin.
  pose proof (sa_reach_inv _ _ _ Hb Hr) as Hinv.
  unfold vector_grow, temp_allocate in E1, E2. rewrite N.mod_small in E1, E2 by assumption.
  pose proof (sa_alloc_inv start size s (n1 * tsize) a Hb Hp2 Ha Hnf Hinv) as A1.
  destruct (sa_allocate s.1 (n1 * tsize) a) as [l1' [q1|]] eqn:F1; [|discriminate]. injection E1 as -> ->.
  destruct A1 as (Hinv1 & Hal1 & Hin1 & Htop1 & Hoff1).
  pose proof (sa_alloc_inv start size (l1, (p1, n1 * tsize, sa_offset s.1) :: s.2) (n2 * tsize) a Hb Hp2 Ha Hnf1 Hinv1) as A2.
  cbn [fst snd] in A2.
  destruct (sa_allocate l1 (n2 * tsize) a) as [l2' [q2|]] eqn:F2; [|discriminate].
  destruct A2 as (Hinv2 & Hal2 & Hin2 & Htop2 & Hoff2).
  destruct Hinv as (S1 & S2 & S3 & _).
  (* the header of the old memory *)
  assert (p1 < start + sa_offset s.1 + 1 + a) as Hclose1.
  { unfold sa_allocate in F1. pose proof (pow2_pos _ Hp2).
    pose proof (std_align_spec a (n1 * tsize) (sa_start s.1 + sa_offset s.1 + 1) (size_sub (size_sub (sa_size s.1) (sa_offset s.1)) 1) ltac:(done)) as Hs.
    destruct (std_align _ _ _ _) as [q|]; [|discriminate]. injection F1 as _ ->. rewrite S1 in Hs. lia. }
  assert (p2 = q2 ∧ sa_start l2 = start ∧ sa_size l2 = size ∧ sa_offset l2 = sa_offset s.1) as (-> & T1 & T2 & T3).
  { destruct (sa_deallocate l2' p1) as [l2''|] eqn:F3; [|discriminate]. cbn in E2. injection E2 as -> ->.
    split; [done|].
    destruct Hinv2 as (U1 & U2 & U3 & U4). cbn [fst snd] in *.
    destruct U4 as (_ & _ & _ & _ & _ & _ & _ & _ & U4). cbn [fst snd] in U4.
    destruct U4 as (_ & pad & Hpad & Hp & Hp1 & Hple & Hps & Hbef & _). cbn [fst snd] in *.
    unfold sa_deallocate in F3. destruct (negb _); [discriminate|]. rewrite Hpad in F3. cbn in F3. injection F3 as <-.
    cbn [sa_start sa_size sa_offset]. split; [done|]. split; [done|]. rewrite U1.
    change (start + size < size_mod) in Hb. unfold inside in Hin1. cbn [fst snd] in Hin1.
    rewrite (size_sub_small p1 pad) by lia. rewrite size_sub_small by lia. lia. }
  assert (q2 < start + sa_offset l1 + 1 + a) as Hclose.
  { unfold sa_allocate in F2. pose proof (pow2_pos _ Hp2).
    pose proof (std_align_spec a (n2 * tsize) (sa_start l1 + sa_offset l1 + 1) (size_sub (size_sub (sa_size l1) (sa_offset l1)) 1) ltac:(done)) as Hs.
    destruct (std_align _ _ _ _) as [q|]; [|discriminate]. injection F2 as _ ->.
    destruct Hinv1 as (V1 & _). cbn [fst] in V1. rewrite V1 in Hs. lia. }
  assert (∃ l, sa_allocate l2 n a = (l, Some p1)) as [l Hl].
  { unfold sa_allocate in *. rewrite T1, T2, T3. rewrite S1, S2 in F1.
    unfold sa_remaining in Hnf. rewrite S2 in Hnf.
    change (start + size < size_mod) in Hb.
    rewrite (size_sub_small size (sa_offset s.1)) in * by lia. rewrite size_sub_small in * by lia.
    pose proof (pow2_pos _ Hp2).
    pose proof (std_align_spec a (n1 * tsize) (start + sa_offset s.1 + 1) (size - sa_offset s.1 - 1) ltac:(done)) as Hs.
    pose proof (std_align_spec a n (start + sa_offset s.1 + 1) (size - sa_offset s.1 - 1) ltac:(done)) as Ht.
    destruct (std_align a (n1 * tsize) _ _) as [q|]; [|discriminate]. injection F1 as _ ->.
    unfold inside in Hin. cbn [fst snd] in Hin.
    destruct (std_align a n _ _) as [q|].
    - destruct Hs as (X1 & X2 & X3 & X4). destruct Ht as (Y1 & Y2 & Y3 & Y4).
      assert (q = p1) as ->; [|by eexists].
      unfold aligned in X1, Y1. apply N.mod_divide in X1 as [u ->]; [|lia]. apply N.mod_divide in Y1 as [w ->]; [|lia].
      assert (u = w) as ->; [|done]. 
      destruct (N.lt_trichotomy u w) as [Hc|[Hc|Hc]]; [|done|]; exfalso.
      + assert ((u + 1) * a <= w * a) by (apply N.mul_le_mono_r; lia). lia.
      + assert ((w + 1) * a <= u * a) by (apply N.mul_le_mono_r; lia). lia.
    - exfalso. specialize (Ht p1 Hal1 ltac:(lia)). lia. }
  exists l. split; [done|]. intros Hd. unfold inside in *. cbn [fst snd] in *.
  apply (Hd q2); unfold in_block; cbn [fst snd]; lia.
Qed.

(** The consequence for the contents: a vector of one eight-byte object grows to two objects, and the first byte of the
    grown vector is seven; another vector requests four objects and stores nine in its third object; now
    the first byte of the first vector is nine. *)
Theorem C94_overwrite_refuted :
  ∃ l1 p1 l2 p2 l3 p3, vector_grow (sa_init 4096 1024) None 1 8 8 = Some (l1, Some p1) ∧
    vector_grow l1 (Some p1) 2 8 8 = Some (l2, Some p2) ∧
    vector_grow (sa_poke l2 p2 7) None 4 8 8 = Some (l3, Some p3) ∧
    sa_mem l3 !! p2 = Some 7 ∧ sa_mem (sa_poke l3 (p3 + 16) 9) !! p2 = Some 9.
Proof. do 6 eexists. repeat (split; [vm_compute; reflexivity|]). vm_compute. reflexivity. Qed.

(** Four workers; while the call waits, the thread runs two further calls, the first of which makes a
    third one. *)
Definition nested_call : pcall :=
  PCall 4 16 8 [(0, 11); (63, 12)] [PCall 4 16 8 [(0, 21)] [PCall 4 24 16 [(5, 31)] []]; PCall 4 16 8 [] []].

Example C94_example :
  real_buffer 4096 1024 ∧ sa_reach 4096 1024 (sa_init 4096 1024, []) ∧ call_ok nested_call ∧
  Forall (λ v : tconf, sa_remaining v.1 ≠ 0)
    ((sa_init 4096 1024, []) :: (run_call nested_call (sa_init 4096 1024, [])).1) ∧
  snd <$> (run_call nested_call (sa_init 4096 1024, [])).1 =
    [[(4104, 64, 0)];
     [(4176, 64, 72); (4104, 64, 0)];
     [(4256, 96, 144); (4176, 64, 72); (4104, 64, 0)];
     [(4176, 64, 72); (4104, 64, 0)];
     [(4104, 64, 0)];
     [(4176, 64, 72); (4104, 64, 0)];
     [(4104, 64, 0)];
     []] ∧
  (* the growth theorem's hypotheses *)
  (∃ l1 p1 l2 p2, vector_grow (sa_init 4096 1024) None 1 8 8 = Some (l1, Some p1) ∧
    vector_grow l1 (Some p1) 2 8 8 = Some (l2, Some p2) ∧ sa_remaining l1 ≠ 0 ∧ inside (p1, 17) 4096 1024).
Proof.
  split; [done|]. split; [constructor|]. split.
  { assert (pow2 8) by (by exists 3). assert (pow2 16) by (by exists 4).
    unfold nested_call. repeat (constructor; try done). }
  split.
  { apply (proj1 (Forall_fmap (λ v : tconf, sa_remaining v.1) (λ n : N, n ≠ 0) _)).
    vm_compute. repeat (apply Forall_cons; split; [discriminate|]). apply Forall_nil. exact I. }
  split; [by vm_compute|].
  do 4 eexists. do 2 (split; [vm_compute; reflexivity|]). split; [vm_compute; discriminate|]. unfold inside. cbn [fst snd]. lia.
Qed.

Print Assumptions C94_nested_partial.
Print Assumptions C94_growth_refuted.
Print Assumptions C94_overwrite_refuted.
