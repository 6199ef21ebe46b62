(** C44: linear allocator; C45: stack allocator. *)
From Verif Require Import Base Bits Allocators.
Ltac Zify.zify_post_hook ::= Z.div_mod_to_equations.
Local Open Scope N_scope.

(** * Specification *)

(** A block of memory: address and length. *)
Definition in_block (a : N) (b : N * N) : Prop := b.1 <= a < b.1 + b.2.
Definition disjoint_blocks (b c : N * N) : Prop := ∀ a, in_block a b → ¬ in_block a c.
Definition inside (b : N * N) (start size : N) : Prop := start <= b.1 ∧ b.1 + b.2 <= start + size.
Definition aligned (a p : N) : Prop := p mod a = 0.

(** A buffer that exists in a 64-bit address space. *)
Definition real_buffer (start size : N) : Prop := start + size < 2 ^ 64.

(** * std::align *)

Lemma std_align_spec a n p sp :
  0 < a →
  match std_align a n p sp with
  | Some q => aligned a q ∧ p <= q ∧ q + n <= p + sp ∧ q < p + a
  | None => ∀ q, aligned a q → p <= q → p + sp < q + n
  end.
Proof.
  intros Ha. unfold std_align, aligned. destruct (N.ltb_spec sp n).
  - intros q _ ?. lia.
  - set (d := (a - p mod a) mod a).
    assert (d < a) by (subst d; apply N.mod_lt; lia).
    assert ((p + d) mod a = 0) as Hd.
    { subst d. pose proof (N.mod_lt p a ltac:(lia)).
      destruct (decide (p mod a = 0)) as [E|E].
      - rewrite E, N.sub_0_r, N.mod_same, N.add_0_r by lia. done.
      - rewrite (N.mod_small (a - p mod a)) by lia.
        rewrite (N.div_mod p a) at 1 by lia.
        replace (a * (p / a) + p mod a + (a - p mod a)) with ((p / a + 1) * a) by nia.
        apply N.mod_mul. lia. }
    destruct (N.ltb_spec (sp - n) d); [|repeat split; [done|lia..]].
    intros q Hq Hpq.
    assert (p + d <= q); [|lia].
    destruct (N.le_gt_cases (p + d) q) as [|Hlt]; [done|exfalso].
    rewrite (N.div_mod q a), Hq, N.add_0_r in Hlt by lia.
    rewrite (N.div_mod q a), Hq, N.add_0_r in Hpq by lia.
    rewrite (N.div_mod (p + d) a), Hd, N.add_0_r in Hlt by lia.
    assert (q / a < (p + d) / a) by nia.
    rewrite (N.div_mod (p + d) a) in Hlt by lia.
    assert (p + d = a * ((p + d) / a)) as E.
    { rewrite (N.div_mod (p + d) a) at 1 by lia. rewrite Hd. lia. }
    nia.
Qed.

Lemma size_sub_small a b : b <= a → a < size_mod → size_sub a b = a - b.
Proof.
  intros. unfold size_sub, size_mod in *. rewrite (N.mod_small b) by lia.
  replace (a + (2 ^ 64 - b)) with (a - b + 1 * 2 ^ 64) by lia.
  rewrite N.mod_add by done. apply N.mod_small. lia.
Qed.

(** * C44 *)

Inductive lin_op := LAlloc (size alignment : N) | LReset.

(** A request sequence as seen by the user: the allocator and the blocks handed out since the last
    reset, newest first. *)
Definition lin_step (s : lin * list (N * N)) (o : lin_op) : lin * list (N * N) :=
  match o with
  | LAlloc n a =>
    match lin_allocate s.1 n a with
    | (l, Some p) => (l, (p, n) :: s.2)
    | (l, None) => (l, s.2)
    end
  | LReset => (lin_reset s.1, [])
  end.
Definition lin_run (s : lin * list (N * N)) (os : list lin_op) := foldl lin_step s os.

Definition lin_op_ok (o : lin_op) : Prop :=
  match o with LAlloc n a => pow2 a | LReset => True end.

(** First free address: the end of the newest block. *)
Definition lin_end (start : N) (bs : list (N * N)) : N :=
  match bs with [] => start | b :: _ => b.1 + b.2 end.

Definition lin_inv (start size : N) (s : lin * list (N * N)) : Prop :=
  l_ptr s.1 = start ∧ l_size s.1 = size ∧ l_head s.1 = lin_end start s.2 ∧
  start <= lin_end start s.2 <= start + size ∧
  Forall (λ b, inside b start size ∧ b.1 + b.2 <= lin_end start s.2) s.2 ∧
  (∀ (i j : nat) b c, (i < j)%nat → s.2 !! i = Some b → s.2 !! j = Some c → disjoint_blocks b c).

Lemma lin_space start size s :
  real_buffer start size → lin_inv start size s →
  size_sub (l_size s.1) (l_head s.1 - l_ptr s.1) = start + size - lin_end start s.2.
Proof.
  intros Hb (H1 & H2 & H3 & H4 & _). change (start + size < size_mod) in Hb. rewrite size_sub_small; lia.
Qed.

Lemma lin_run_inv start size os :
  real_buffer start size → Forall lin_op_ok os →
  lin_inv start size (lin_run (lin_init start size, []) os).
Proof.
  intros Hb Hok. induction os as [|o os IH] using rev_ind.
  - unfold lin_inv. cbn. repeat split; try lia; [constructor|]. intros i j b c _ Hi. done.
  - apply Forall_app in Hok as [Hok Ho]. apply Forall_cons in Ho as [Ho _]. specialize (IH Hok).
    unfold lin_run in *. rewrite foldl_snoc. set (s := foldl lin_step _ os) in *. clearbody s.
    pose proof (lin_space _ _ _ Hb IH) as Hsp. destruct IH as (H1 & H2 & H3 & H4 & H5 & H6).
    destruct o as [n a|].
    + cbn [lin_step]. unfold lin_allocate. rewrite Hsp.
      cbn in Ho. pose proof (pow2_pos _ Ho).
      pose proof (std_align_spec a n (l_head s.1) (start + size - lin_end start s.2) ltac:(done)) as Hal.
      destruct (std_align _ _ _ _) as [p|]; [|done].
      destruct Hal as (Ha & Hp & Hq & _). unfold lin_inv. cbn [fst snd l_ptr l_size l_head lin_end].
      repeat split; try lia.
      * apply Forall_cons. unfold inside. cbn. split; [lia|].
        eapply Forall_impl; [exact H5|]. intros b [Hbi Hbe]. split; [done|]. lia.
      * intros i j b c Hij Hi Hj. destruct j as [|j]; [lia|]. cbn in Hj.
        destruct i as [|i]; cbn in Hi.
        -- injection Hi as <-. rewrite Forall_lookup in H5. destruct (H5 _ _ Hj) as [_ Hc].
           intros x [Hx _] [_ Hx']. cbn in *. lia.
        -- eapply (H6 i j); [lia|done|done].
    + cbn [lin_step]. unfold lin_inv. cbn. repeat split; try lia; [done|]. intros i j b c _ Hi. done.
Qed.

(** After any request sequence, every block handed out since the last reset is inside the buffer and
    disjoint from the others, and the next request either yields an aligned block inside the buffer and
    disjoint from all of them, or fails, leaves everything unchanged and there was no room: no aligned
    address behind the blocks handed out leaves enough space. *)
Theorem C44_linear_allocator start size os n a :
  real_buffer start size → Forall lin_op_ok os → pow2 a →
  let s := lin_run (lin_init start size, []) os in
  Forall (λ b, inside b start size) s.2 ∧
  (∀ (i j : nat) b c, (i < j)%nat → s.2 !! i = Some b → s.2 !! j = Some c → disjoint_blocks b c) ∧
  match lin_allocate s.1 n a with
  | (l, Some p) => aligned a p ∧ inside (p, n) start size ∧ Forall (disjoint_blocks (p, n)) s.2
  | (l, None) => l = s.1 ∧
    ∀ q, aligned a q → start <= q → Forall (λ b, b.1 + b.2 <= q) s.2 → ¬ inside (q, n) start size
  end.
Proof.
  intros Hb Hok Ha s. pose proof (lin_run_inv start size os Hb Hok) as Hinv. fold s in Hinv.
  pose proof (lin_space _ _ _ Hb Hinv) as Hsp. destruct Hinv as (H1 & H2 & H3 & H4 & H5 & H6).
  split; [eapply Forall_impl; [exact H5|]; by intros b [? _]|]. split; [exact H6|].
  unfold lin_allocate. rewrite Hsp. pose proof (pow2_pos _ Ha).
  pose proof (std_align_spec a n (l_head s.1) (start + size - lin_end start s.2) ltac:(done)) as Hal.
  destruct (std_align _ _ _ _) as [p|].
  - destruct Hal as (Hap & Hp & Hq & _). split; [done|]. split; [unfold inside; cbn; lia|].
    eapply Forall_impl; [exact H5|]. intros b [_ Hbe] x [Hx _] [_ Hx']. cbn in *. lia.
  - split; [done|]. intros q Hq Hs Hall [_ Hin]. cbn in Hin.
    assert (lin_end start s.2 <= q).
    { unfold lin_end. destruct s.2 as [|b bs]; [done|]. by apply Forall_cons in Hall as [? _]. }
    specialize (Hal q Hq ltac:(lia)). lia.
Qed.

(** After a reset the whole buffer is available again: any request that fits at the start succeeds. *)
Theorem C44_reset_frees_all start size os n a :
  real_buffer start size → Forall lin_op_ok os → pow2 a → aligned a start → n <= size →
  let s := lin_run (lin_init start size, []) os in
  snd (lin_allocate (lin_reset s.1) n a) = Some start.
Proof.
  intros Hb Hok Ha Hal Hn s. pose proof (lin_run_inv start size (os ++ [LReset]) Hb) as Hinv.
  unfold lin_run in Hinv. rewrite foldl_snoc in Hinv. fold (lin_run (lin_init start size, []) os) in Hinv.
  fold s in Hinv. specialize (Hinv ltac:(apply Forall_app; split; [done|by repeat constructor])).
  pose proof (lin_space _ _ _ Hb Hinv) as Hsp. cbn [lin_step fst snd] in *.
  destruct Hinv as (H1 & H2 & H3 & H4 & _). cbn [fst snd lin_end] in *.
  unfold lin_allocate. rewrite Hsp, H3.
  pose proof (pow2_pos _ Ha).
  pose proof (std_align_spec a n start (start + size - start) ltac:(done)) as Hsa.
  destruct (std_align _ _ _ _) as [p|] eqn:E; cbn.
  - unfold std_align in E. unfold aligned in Hal. rewrite Hal, N.sub_0_r, N.mod_same in E by lia.
    destruct (_ <? _); [done|]. destruct (_ <? _); [done|]. f_equal. injection E. lia.
  - specialize (Hsa start Hal ltac:(lia)). lia.
Qed.

Example C44_example :
  let s := lin_run (lin_init 1001 64, []) [LAlloc 10 8; LAlloc 1 1; LAlloc 100 1; LAlloc 16 16] in
  real_buffer 1001 64 ∧ s.2 = [(1024, 16); (1018, 1); (1008, 10)] ∧
  snd (lin_allocate s.1 25 1) = Some 1040 ∧ snd (lin_allocate s.1 26 1) = None.
Proof. by vm_compute. Qed.

(** * C45 *)

(** What a user of the stack allocator can do: request memory, release the newest block, store
    bytes inside a live block, and reset the allocator, which ends all blocks. *)
Inductive sa_op := SAlloc (bytes alignment : N) | SFree | SWrite (block : nat) (pos byte : N) | SReset.

(** The allocator together with the live blocks, newest first; each block is recorded with the
    offset of the allocator when it was requested. *)
Definition sa_step (s : stack * list (N * N * N)) (o : sa_op) : option (stack * list (N * N * N)) :=
  match o with
  | SAlloc n a =>
    match sa_allocate s.1 n a with
    | (l, Some p) => Some (l, (p, n, sa_offset s.1) :: s.2)
    | (l, None) => Some (l, s.2)
    end
  | SFree =>
    match s.2 with
    | [] => None
    | b :: bs => l ← sa_deallocate s.1 b.1.1; Some (l, bs)
    end
  | SWrite i pos byte =>
    match s.2 !! i with
    | Some b => if pos <? b.1.2 then Some (sa_poke s.1 (b.1.1 + pos) byte, s.2) else None
    | None => None
    end
  | SReset => Some (sa_reset s.1, [])
  end.

Fixpoint sa_run (s : stack * list (N * N * N)) (os : list sa_op) : option (stack * list (N * N * N)) :=
  match os with [] => Some s | o :: os => s' ← sa_step s o; sa_run s' os end.

(** The asserted precondition of a request. *)
Definition sa_op_ok (o : sa_op) : Prop :=
  match o with SAlloc n a => pow2 a ∧ a < 256 | _ => True end.

(** A request is made with the buffer not completely full. *)
Definition not_full (s : stack * list (N * N * N)) (o : sa_op) : Prop :=
  match o with SAlloc _ _ => sa_remaining s.1 ≠ 0 | _ => True end.

(** The offset before each live block was requested, newest first, as recorded by the headers. *)
Fixpoint offsets_ok (start : N) (mem : gmap N N) (off : N) (bs : list (N * N * N)) : Prop :=
  match bs with
  | [] => off = 0
  | b :: bs =>
    off + start = b.1.1 + b.1.2 ∧
    ∃ pad, mem !! (b.1.1 - 1) = Some pad ∧ pad < padding_mod ∧ 1 <= pad ∧ pad <= b.1.1 - start ∧ start <= b.1.1 ∧
      b.2 = b.1.1 - pad - start ∧ offsets_ok start mem b.2 bs
  end.

Definition sa_inv (start size : N) (s : stack * list (N * N * N)) : Prop :=
  sa_start s.1 = start ∧ sa_size s.1 = size ∧ sa_offset s.1 <= size ∧
  offsets_ok start (sa_mem s.1) (sa_offset s.1) s.2.

(** Facts about the live blocks that follow from the headers. *)
Lemma offsets_below start mem off bs b :
  offsets_ok start mem off bs → b ∈ bs → start < b.1.1 ∧ b.1.1 + b.1.2 <= start + off.
Proof.
  revert off. induction bs as [|c bs IH]; intros off; [intros _ Hb; by apply elem_of_nil in Hb|].
  intros (H1 & pad & _ & H2 & H3 & H4 & H5 & H7 & H6) Hb. apply elem_of_cons in Hb as [->|Hb]; [lia|].
  specialize (IH _ H6 Hb). lia.
Qed.

Lemma offsets_disjoint start mem off bs (i j : nat) (b c : N * N * N) :
  offsets_ok start mem off bs → (i < j)%nat → bs !! i = Some b → bs !! j = Some c →
  c.1.1 + c.1.2 < b.1.1.
Proof.
  revert off i j. induction bs as [|d bs IH]; intros off i j; [done|].
  intros (H1 & pad & _ & H2 & H3 & H4 & H5 & H7 & H6) Hij Hi Hj.
  destruct j as [|j]; [lia|]. cbn in Hj. destruct i as [|i]; cbn in Hi.
  - injection Hi as <-. pose proof (offsets_below _ _ _ _ c H6 ltac:(by eapply elem_of_list_lookup_2)). lia.
  - eapply (IH _ i j); [done|lia|done|done].
Qed.

(** Storing a byte that is not a header keeps the headers. *)
Lemma offsets_mem start mem off bs x v :
  offsets_ok start mem off bs → Forall (λ b, x ≠ b.1.1 - 1) bs → offsets_ok start (<[x:=v]> mem) off bs.
Proof.
  revert off. induction bs as [|b bs IH]; intros off; [done|].
  intros (H1 & pad & Hm & H2 & H3 & H4 & H5 & H7 & H6) Hx. apply Forall_cons in Hx as [Hx Hxs].
  split; [done|]. exists pad. rewrite lookup_insert_ne by done. naive_solver.
Qed.

(** A byte of a live block is not a header byte of a live block. *)
Lemma block_byte_not_header start mem off bs (i : nat) (b : N * N * N) pos :
  offsets_ok start mem off bs → bs !! i = Some b → pos < b.1.2 → Forall (λ c, b.1.1 + pos ≠ c.1.1 - 1) bs.
Proof.
  intros Hok Hi Hpos. apply Forall_lookup. intros j c Hj Heq.
  pose proof (offsets_below _ _ _ _ b Hok ltac:(by eapply elem_of_list_lookup_2)).
  pose proof (offsets_below _ _ _ _ c Hok ltac:(by eapply elem_of_list_lookup_2)).
  destruct (lt_eq_lt_dec i j) as [[Hij|Hij]|Hij].
  - pose proof (offsets_disjoint _ _ _ _ i j b c Hok Hij Hi Hj). lia.
  - subst. assert (b = c) as -> by congruence. lia.
  - pose proof (offsets_disjoint _ _ _ _ j i c b Hok Hij Hj Hi). lia.
Qed.

Lemma sa_alloc_inv start size s n a :
  real_buffer start size → pow2 a → a < padding_mod → sa_remaining s.1 ≠ 0 → sa_inv start size s →
  match sa_allocate s.1 n a with
  | (l, Some p) => sa_inv start size (l, (p, n, sa_offset s.1) :: s.2) ∧ aligned a p ∧ inside (p, n) start size ∧
      start + sa_offset s.1 < p ∧ start + sa_offset l = p + n
  | (l, None) => l = s.1 ∧
      ∀ q, aligned a q → start + sa_offset s.1 < q → ¬ inside (q, n) start size
  end.
Proof.
  intros Hb Ha Ha' Hnf (H1 & H2 & H3 & H4). change (start + size < size_mod) in Hb. unfold padding_mod in *.
  unfold sa_remaining in Hnf. rewrite size_sub_small in Hnf by lia.
  unfold sa_allocate. rewrite H1, H2 in *.
  rewrite (size_sub_small size (sa_offset s.1)) by lia. rewrite size_sub_small by lia.
  pose proof (pow2_pos _ Ha).
  pose proof (std_align_spec a n (start + sa_offset s.1 + 1) (size - sa_offset s.1 - 1) ltac:(done)) as Hal.
  destruct (std_align _ _ _ _) as [p|].
  - destruct Hal as (Hap & Hp & Hq & Hr).
    assert (a < 256 → p - (start + sa_offset s.1) < 256) as Hpad.
    { intros _. destruct Ha as [k ->]. assert (k < 8) by (apply (N.pow_lt_mono_r_iff 2); lia).
      assert (2 ^ k <= 2 ^ 7) by (apply N.pow_le_mono_r; lia). lia. }
    unfold padding_mod. rewrite (N.mod_small (p - _)) by lia.
    rewrite (N.mod_small (sa_offset s.1 + _)) by lia.
    cbn [sa_offset]. split; [|repeat split; unfold inside; cbn; try done; try lia].
    unfold sa_inv. cbn [fst snd sa_start sa_size sa_offset sa_mem offsets_ok].
    split; [done|]. split; [done|]. split; [lia|]. split; [cbn; lia|].
    exists (p - (start + sa_offset s.1)). cbn [fst snd]. rewrite lookup_insert.
    split; [done|]. split; [unfold padding_mod; lia|]. split; [lia|]. split; [lia|]. split; [lia|].
    split; [lia|].
    apply offsets_mem; [done|]. apply Forall_forall. intros b Hbb.
    pose proof (offsets_below _ _ _ _ b H4 Hbb). lia.
  - split; [done|]. intros q Hq Hlt [_ Hin]. cbn in Hin. specialize (Hal q Hq ltac:(lia)). lia.
Qed.

Lemma sa_free_inv start size s b bs :
  real_buffer start size → sa_inv start size s → s.2 = b :: bs → b.1.1 < start + size →
  ∃ l, sa_deallocate s.1 b.1.1 = Some l ∧ sa_inv start size (l, bs) ∧ sa_offset l = b.2.
Proof.
  intros Hb (H1 & H2 & H3 & H4) Hs Hlt. rewrite Hs in H4.
  destruct H4 as (Ho & pad & Hm & Hp & Hp1 & Hp2 & Hp3 & Hbef & Hrec). change (start + size < size_mod) in Hb. unfold padding_mod in *.
  unfold sa_deallocate. rewrite (proj2 (N.ltb_lt _ _)), (proj2 (N.leb_le _ _)) by lia. cbn [andb negb]. rewrite Hm. cbn. eexists. split; [done|]. rewrite H1, H2.
  rewrite (size_sub_small b.1.1 pad) by lia. rewrite size_sub_small by lia.
  split; [|cbn; lia]. unfold sa_inv. cbn. rewrite <-Hbef. repeat split; try done. lia.
Qed.

Lemma sa_step_inv start size s o s' :
  real_buffer start size → sa_op_ok o → not_full s o → sa_inv start size s → sa_step s o = Some s' →
  sa_inv start size s'.
Proof.
  intros Hb Ho Hnf Hinv Hs. destruct o as [n a| |i pos byte|]; cbn in *.
  - destruct Ho as [Ha Ha']. pose proof (sa_alloc_inv start size s n a Hb Ha Ha' Hnf Hinv) as Hal.
    destruct (sa_allocate s.1 n a) as [l [p|]]; injection Hs as <-; [naive_solver|].
    destruct Hal as [-> _]. by destruct s.
  - destruct s.2 as [|b bs] eqn:E; [done|].
    assert (b.1.1 < start + size) as Hlt.
    { unfold sa_deallocate in Hs. destruct Hinv as (<- & <- & _). destruct (N.ltb_spec b.1.1 (sa_start s.1 + sa_size s.1)); [done|].
      cbn in Hs. done. }
    destruct (sa_free_inv start size s b bs Hb Hinv E Hlt) as (l & Hl & Hl' & _). rewrite Hl in Hs.
    cbn in Hs. by injection Hs as <-.
  - destruct (s.2 !! i) as [b|] eqn:E; [|done]. destruct (N.ltb_spec pos b.1.2); [|done]. injection Hs as <-.
    destruct Hinv as (H1 & H2 & H3 & H4). repeat split; try done. cbn.
    apply offsets_mem; [done|]. by eapply block_byte_not_header.
  - injection Hs as <-. destruct Hinv as (H1 & H2 & _ & _). unfold sa_inv. cbn. repeat split; try done. lia.
Qed.

(** Runs in which no request finds the buffer completely full. *)
Inductive sa_reach (start size : N) : stack * list (N * N * N) → Prop :=
  | sa_reach_init : sa_reach start size (sa_init start size, [])
  | sa_reach_step s o s' :
      sa_reach start size s → sa_op_ok o → not_full s o → sa_step s o = Some s' → sa_reach start size s'.

Lemma sa_reach_inv start size s : real_buffer start size → sa_reach start size s → sa_inv start size s.
Proof.
  intros Hb. induction 1; [|by eapply sa_step_inv].
  unfold sa_inv. cbn. repeat split; try done. lia.
Qed.

(** In every such run the live blocks are inside the buffer and pairwise disjoint; a request is aligned,
    inside the buffer and disjoint from every live block, or fails without effect because no aligned
    address above the top leaves enough space. *)
Theorem C45_stack_allocator_partial start size s n a :
  real_buffer start size → sa_reach start size s → pow2 a → a < 256 → sa_remaining s.1 ≠ 0 →
  Forall (λ b, inside b.1 start size) s.2 ∧
  (∀ (i j : nat) b c, (i < j)%nat → s.2 !! i = Some b → s.2 !! j = Some c → disjoint_blocks b.1 c.1) ∧
  match sa_allocate s.1 n a with
  | (l, Some p) => aligned a p ∧ inside (p, n) start size ∧ Forall (λ b, disjoint_blocks (p, n) b.1) s.2
  | (l, None) => l = s.1 ∧
      ∀ q, aligned a q → start + sa_offset s.1 < q → ¬ inside (q, n) start size
  end.
Proof.
  intros Hb Hr Ha Ha' Hnf. pose proof (sa_reach_inv _ _ _ Hb Hr) as Hinv.
  pose proof (sa_alloc_inv start size s n a Hb Ha Ha' Hnf Hinv) as Hal.
  destruct Hinv as (H1 & H2 & H3 & H4). split; [|split].
  - apply Forall_forall. intros b Hbb. pose proof (offsets_below _ _ _ _ b H4 Hbb). unfold inside. lia.
  - intros i j b c Hij Hi Hj x [Hx _] [_ Hx']. pose proof (offsets_disjoint _ _ _ _ i j b c H4 Hij Hi Hj). lia.
  - destruct (sa_allocate s.1 n a) as [l [p|]]; [|done].
    destruct Hal as (_ & Hap & Hin & Hlt & _). split; [done|]. split; [done|].
    apply Forall_forall. intros b Hbb x [Hx _] [_ Hx']. cbn in *.
    pose proof (offsets_below _ _ _ _ b H4 Hbb). lia.
Qed.


(** Releasing the newest block, if not empty, restores the allocator to where it was when that block was requested,
    whatever was allocated, released and stored in between. *)
Theorem C45_release_restores start size s b bs :
  real_buffer start size → sa_reach start size s → s.2 = b :: bs → b.1.2 ≠ 0 →
  ∃ l, sa_deallocate s.1 b.1.1 = Some l ∧ sa_offset l = b.2 ∧ sa_start l = start ∧ sa_size l = size.
Proof.
  intros Hb Hr Hs Hne. pose proof (sa_reach_inv _ _ _ Hb Hr) as Hinv.
  assert (b.1.1 < start + size) as Hlt.
  { destruct Hinv as (_ & _ & H3 & H4). pose proof (offsets_below _ _ _ _ b H4 ltac:(rewrite Hs; left)). lia. }
  destruct (sa_free_inv start size s b bs Hb Hinv Hs Hlt) as (l & Hl & (H1 & H2 & _) & Ho). eauto.
Qed.

(** An empty block at the end of the buffer cannot be released: the assertion fails. *)
Theorem C45_empty_block_refuted :
  ∃ start size s b bs, real_buffer start size ∧ sa_reach start size s ∧ s.2 = b :: bs ∧ sa_deallocate s.1 b.1.1 = None.
Proof.
  set (s := (Stack 4096 8 8 {[4103 := 8]}, [(4104, 0, 0)]) : stack * list (N * N * N)).
  exists 4096, 8, s, (4104, 0, 0), []. split; [done|]. split; [|done].
  eapply (sa_reach_step _ _ (sa_init 4096 8, []) (SAlloc 0 8)); [constructor| | |].
  - split; [by exists 3|done].
  - by vm_compute.
  - by vm_compute.
Qed.

(** With all blocks released, one by one or by reset, the allocator is empty again. *)
Theorem C45_all_released start size s :
  real_buffer start size → sa_reach start size s → s.2 = [] → sa_remaining s.1 = size.
Proof.
  intros Hb Hr Hs. destruct (sa_reach_inv _ _ _ Hb Hr) as (H1 & H2 & H3 & H4). rewrite Hs in H4. cbn in H4.
  change (start + size < size_mod) in Hb. unfold sa_remaining. rewrite H2, H4, size_sub_small; lia.
Qed.

(** The restriction to a buffer that is not completely full is needed: with a 1024-byte buffer filled by
    one request of 1023 bytes, the next request "succeeds" with memory behind the buffer. *)
Theorem C45_full_buffer_refuted :
  ∃ start size s l p, real_buffer start size ∧ sa_reach start size s ∧
    sa_allocate s.1 8 8 = (l, Some p) ∧ ¬ inside (p, 8) start size ∧ start + size <= p.
Proof.
  set (s := (Stack 4096 1024 1024 {[4096 := 1]}, [(4097, 1023, 0)]) : stack * list (N * N * N)).
  exists 4096, 1024, s. eexists _, _. split; [done|]. split.
  - eapply (sa_reach_step _ _ (sa_init 4096 1024, []) (SAlloc 1023 1)); [constructor| | |].
    + split; [by exists 0|done].
    + by vm_compute.
    + by vm_compute.
  - split; [by vm_compute|]. split; [|done]. intros [_ H]. by vm_compute in H.
Qed.

(** A moved-to stack allocator restarts at offset zero, so it hands out memory of live blocks. *)
Theorem C45_move_refuted :
  ∃ start size s b l p, real_buffer start size ∧ sa_reach start size s ∧ b ∈ s.2 ∧
    sa_allocate (sa_move s.1) 8 8 = (l, Some p) ∧ ¬ disjoint_blocks (p, 8) b.1.
Proof.
  set (s := (Stack 4096 16 1024 {[4103 := 8]}, [(4104, 8, 0)]) : stack * list (N * N * N)).
  exists 4096, 1024, s, (4104, 8, 0). eexists _, 4104. split; [done|]. split; [|split; [|split]].
  - eapply (sa_reach_step _ _ (sa_init 4096 1024, []) (SAlloc 8 8)); [constructor| | |].
    + split; [by exists 3|done].
    + by vm_compute.
    + by vm_compute.
  - by left.
  - by vm_compute.
  - intros H. apply (H 4104); unfold in_block; cbn; lia.
Qed.

(** [temp_allocator] multiplies without an overflow check: a request for 2^61 + 1 objects of eight bytes
    yields an eight-byte block. *)
Theorem C45_temp_overflow_refuted :
  ∃ start size n l p, real_buffer start size ∧
    temp_allocate (sa_init start size) n 8 8 = (l, Some p) ∧ ¬ inside (p, n * 8) start size.
Proof.
  exists 4096, 1024, (2 ^ 61 + 1). eexists _, _. split; [done|]. split; [by vm_compute|].
  intros [_ H]. by vm_compute in H.
Qed.

Fixpoint run_ok (s : stack * list (N * N * N)) (os : list sa_op) : Prop :=
  match os with
  | [] => True
  | o :: os => sa_op_ok o ∧ not_full s o ∧ match sa_step s o with Some s' => run_ok s' os | None => True end
  end.

Lemma sa_run_reach start size s os s' :
  sa_reach start size s → run_ok s os → sa_run s os = Some s' → sa_reach start size s'.
Proof.
  revert s. induction os as [|o os IH]; intros s Hs Hok Hrun; cbn in *; [by injection Hrun as <-|].
  destruct Hok as (H1 & H2 & H3). destruct (sa_step s o) as [s1|] eqn:E; [|done]. cbn in Hrun.
  eapply IH; [|done|done]. by eapply sa_reach_step.
Qed.

Example C45_example :
  let ops := [SAlloc 10 8; SWrite 0 3 7; SAlloc 4 16; SWrite 0 0 9; SWrite 1 9 255; SFree; SAlloc 1 1] in
  Forall sa_op_ok ops ∧
  snd <$> sa_run (sa_init 4096 64, []) ops = Some [(4115, 1, 18); (4104, 10, 0)] ∧
  (sa_remaining ∘ fst) <$> sa_run (sa_init 4096 64, []) ops = Some 44 ∧
  (∀ s, sa_run (sa_init 4096 64, []) ops = Some s → sa_reach 4096 64 s).
Proof.
  cbv zeta. split; [|split; [by vm_compute|split; [by vm_compute|]]].
  2: { intros s. apply sa_run_reach; [apply sa_reach_init|].
    repeat split; try done; (by exists 3) || (by exists 4) || by exists 0. }
  repeat (apply Forall_cons; split); try done; try (split; [|done]).
  - by exists 3.
  - by exists 4.
  - by exists 0.
Qed.

Print Assumptions C44_linear_allocator.
Print Assumptions C44_reset_frees_all.
Print Assumptions C45_stack_allocator_partial.
Print Assumptions C45_release_restores.
Print Assumptions C45_empty_block_refuted.
Print Assumptions C45_all_released.
Print Assumptions C45_full_buffer_refuted.
Print Assumptions C45_move_refuted.
Print Assumptions C45_temp_overflow_refuted.
