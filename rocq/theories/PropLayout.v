(** C19, C20, C21: the memory layout of a chunk. *)
From Verif Require Import Base Bits Layout.
Ltac Zify.zify_post_hook ::= Z.div_mod_to_equations.
Local Open Scope N_scope.

(** What the C++ standard guarantees of a component type: its alignment is a power of two that
    divides its size, and the size is positive. *)
Definition valid_type (c : ctype) : Prop :=
  pow2 (ct_align c) ∧ 0 < ct_size c ∧ (ct_align c | ct_size c).

(** Bytes of row [i] of block [b]. *)
Definition in_cell (b : block) (i x : N) : Prop := cell_offset b i <= x < cell_offset b i + ct_size (b_type b).

Lemma packed_acc cs r : foldl (λ r c, r + ct_size c) r cs = r + foldl (λ r c, r + ct_size c) 0 cs.
Proof.
  revert r. induction cs as [|c cs IH]; intros r; cbn [foldl]; [lia|].
  rewrite IH, (IH (0 + _)). lia.
Qed.

Lemma add_blocks_spec max cs off bs e :
  add_blocks max off cs = (bs, e) →
  off <= e ∧ (b_type <$> bs = cs) ∧
  (∀ k b, bs !! k = Some b → off <= b_offset b ∧ b_offset b + max * ct_size (b_type b) <= e) ∧
  (∀ k l b c, (k < l)%nat → bs !! k = Some b → bs !! l = Some c →
     b_offset b + max * ct_size (b_type b) <= b_offset c).
Proof.
  revert off bs e. induction cs as [|c cs IH]; intros off bs e H; cbn [add_blocks] in H.
  - injection H as <- <-. split; [lia|]. split; [done|]. split; [by intros ? ? ?|by intros ? ? ? ? ? ?].
  - cbn [add_block] in H. destruct (add_blocks max _ cs) as [bs' e'] eqn:E. injection H as <- <-.
    destruct (IH _ _ _ E) as (H1 & H2 & H3 & H4).
    split; [lia|]. split; [by rewrite fmap_cons, H2|]. split.
    + intros [|k] b Hk; cbn in Hk.
      * injection Hk as <-. cbn [b_offset b_type]. lia.
      * destruct (H3 _ _ Hk). lia.
    + intros [|k] [|l] b d Hkl Hk Hl; cbn in Hk, Hl; try lia.
      * injection Hk as <-. cbn [b_offset b_type]. destruct (H3 _ _ Hl). lia.
      * eapply (H4 k l); [lia|done|done].
Qed.

Lemma init_blocks_spec max cs bs :
  init_blocks max cs = bs →
  (b_type <$> bs = entity_type :: cs) ∧
  (∀ k l b c, (k < l)%nat → bs !! k = Some b → bs !! l = Some c →
     b_offset b + max * ct_size (b_type b) <= b_offset c).
Proof.
  unfold init_blocks. intros <-.
  destruct (add_blocks max 0 (entity_type :: cs)) as [bs e] eqn:E.
  by destruct (add_blocks_spec _ _ _ _ _ E) as (_ & ? & _ & ?).
Qed.

(** C19.  For all component lists with arbitrary sizes and alignments: no byte belongs to two cells. *)
Theorem C19_cells_disjoint (cs : list ctype) (max : N) (bs : list block) :
  layout cs = Some (max, bs) →
  ∀ (k l : nat) (b c : block) (i j x : N),
    bs !! k = Some b → bs !! l = Some c → i < max → j < max →
    in_cell b i x → in_cell c j x → k = l ∧ i = j.
Proof.
  intros Hl k l b c i j x Hk Hc Hi Hj Hx Hy.
  unfold layout in Hl. destruct (get_max_size cs) as [m|] eqn:Em; [|done]. cbn in Hl.
  injection Hl as -> Hbs. destruct (init_blocks_spec _ _ _ Hbs) as (_ & Hdis). clear Em Hbs.
  unfold in_cell, cell_offset in *.
  destruct (lt_eq_lt_dec k l) as [[Hkl| ->]|Hkl].
  - pose proof (Hdis k l b c Hkl Hk Hc). nia.
  - split; [done|]. rewrite Hk in Hc. injection Hc as ->. nia.
  - pose proof (Hdis l k c b Hkl Hc Hk). nia.
Qed.

(** Every component gets a block, in the order of the component set, after the entity block. *)
Theorem C19_blocks_in_order (cs : list ctype) (max : N) (bs : list block) :
  layout cs = Some (max, bs) → b_type <$> bs = entity_type :: cs ∧ 1 <= max.
Proof.
  unfold layout. intros Hl. destruct (get_max_size cs) as [m|] eqn:Em; [|done]. cbn [mbind option_bind] in Hl.
  injection Hl as -> Hbs. split; [by apply init_blocks_spec in Hbs as [? _]|].
  unfold get_max_size in Em. case_decide; [done|]. injection Em as <-. apply N.le_add_l.
Qed.

(** Sizes. *)
Definition sizes (cs : list ctype) : N := foldl (λ r c, r + ct_size c) 0 cs.
Lemma sizes_cons c cs : sizes (c :: cs) = ct_size c + sizes cs.
Proof. unfold sizes. cbn [foldl]. rewrite packed_acc. lia. Qed.
Lemma packed_sizes cs : packed_components_size cs = 8 + sizes cs.
Proof. unfold packed_components_size. rewrite packed_acc. done. Qed.

Lemma add_elements_ge cs e : e + sizes cs <= foldl add_elements e cs.
Proof.
  revert e. induction cs as [|c cs IH]; intros e; [cbn; lia|]. rewrite sizes_cons. cbn [foldl].
  pose proof (IH (add_elements e c)). unfold add_elements at 1 in H. lia.
Qed.

Lemma entity_elements : add_elements alloc_alignment entity_type = 12.
Proof. done. Qed.

Lemma aligned_ge_packed cs : packed_components_size cs <= aligned_components_size cs.
Proof.
  rewrite packed_sizes. unfold aligned_components_size. rewrite entity_elements.
  change alloc_alignment with 4. pose proof (add_elements_ge cs 12). lia.
Qed.

(** C20, refusal: a row larger than the buffer is refused. *)
Theorem C20_too_large_is_refused (cs : list ctype) :
  16384 < 8 + sizes cs → layout cs = None.
Proof.
  change 16384 with chunk_bytes.
  intros H. unfold layout, get_max_size. rewrite decide_True; [done|].
  pose proof (aligned_ge_packed cs). rewrite packed_sizes in *. lia.
Qed.

(** Alignments never exceed those of what precedes them: each alignment divides 8 (the size of an
    entity) and the size of every earlier component. *)
Fixpoint descending (before : list ctype) (cs : list ctype) : Prop :=
  match cs with
  | [] => True
  | c :: cs => Forall (λ b, (ct_align c | ct_size b)) before ∧ descending (before ++ [c]) cs
  end.

Lemma mod_2n_divide v d : pow2 d → (d | v) → mod_2n v d = 0.
Proof.
  intros Hp [q ->]. rewrite mod_2n_pow2 by done. apply N.mod_mul. pose proof (pow2_pos _ Hp). lia.
Qed.

Lemma sizes_app a b : sizes (a ++ b) = sizes a + sizes b.
Proof. induction a as [|c a IH]; cbn [app]; [done|]. rewrite !sizes_cons, IH. lia. Qed.

Lemma divide_sizes a cs : Forall (λ b, (a | ct_size b)) cs → (a | sizes cs).
Proof.
  induction 1 as [|c cs Hc _ IH]; [apply N.divide_0_r|]. rewrite sizes_cons. by apply N.divide_add_r.
Qed.

Lemma entity_valid : valid_type entity_type.
Proof. split; [by exists 2|]. split; [done|]. by exists 2. Qed.

Lemma descending_blocks max cs before bs e :
  Forall valid_type cs → descending before cs → add_blocks max (max * sizes before) cs = (bs, e) →
  e = max * (sizes before + sizes cs) ∧ Forall (λ b, (ct_align (b_type b) | b_offset b)) bs.
Proof.
  revert before bs e. induction cs as [|c cs IH]; intros before bs e Hv Hd H; cbn [add_blocks] in H.
  - injection H as <- <-. split; [|constructor]. change (sizes []) with 0. lia.
  - apply Forall_cons in Hv as [(Hp & _ & _) Hv]. destruct Hd as [Hb Hd]. cbn [add_block] in H.
    assert ((ct_align c | max * sizes before)) as Hdiv.
    { apply N.divide_mul_r, divide_sizes, Hb. }
    rewrite (mod_2n_divide _ _ Hp Hdiv) in H.
    replace (max * sizes before + (0 + max * ct_size c)) with (max * sizes (before ++ [c])) in H.
    2: { rewrite sizes_app, (sizes_cons c []). change (sizes []) with 0. lia. }
    destruct (add_blocks max _ cs) as [bs' e'] eqn:E. injection H as <- <-.
    destruct (IH _ _ _ Hv Hd E) as [-> Hal]. split.
    + rewrite sizes_app, (sizes_cons c []), (sizes_cons c cs). change (sizes []) with 0. lia.
    + constructor; [done|done].
Qed.

Lemma max_fits cs max : get_max_size cs = Some max → max * packed_components_size cs <= chunk_bytes.
Proof.
  unfold get_max_size. intros H. case_decide as Ha; [done|]. apply (inj Some) in H. subst max.
  pose proof (aligned_ge_packed cs) as Hge. set (a := aligned_components_size cs) in *.
  assert (Hp : 0 < packed_components_size cs) by (rewrite packed_sizes; lia).
  set (p := packed_components_size cs) in *. clearbody a p.
  pose proof (N.mul_div_le (chunk_bytes - a) p). set (q := (chunk_bytes - a) / p) in *. clearbody q. lia.
Qed.

Lemma descending_layout cs max bs :
  Forall valid_type cs → descending [entity_type] cs → layout cs = Some (max, bs) →
  ∃ e, e <= chunk_bytes ∧ add_blocks max 0 (entity_type :: cs) = (bs, e) ∧
    Forall (λ b, (ct_align (b_type b) | b_offset b)) bs.
Proof.
  intros Hv Hd Hl. unfold layout in Hl. destruct (get_max_size cs) as [m|] eqn:Em; [|done]. cbn [mbind option_bind] in Hl.
  injection Hl as -> Hbs. unfold init_blocks in Hbs.
  destruct (add_blocks max 0 (entity_type :: cs)) as [bs' e] eqn:E. cbn in Hbs. subst bs'.
  destruct (descending_blocks max (entity_type :: cs) [] bs e) as [He Hal].
  - constructor; [apply entity_valid|done].
  - split; [constructor|done].
  - unfold sizes. cbn [foldl]. by rewrite N.mul_0_r.
  - exists e. split; [|done]. rewrite He.
    pose proof (max_fits _ _ Em) as Hm. rewrite packed_sizes in Hm.
    change (sizes []) with 0. rewrite sizes_cons. cbn [ct_size entity_type]. lia.
Qed.

(** C20, partial: under [descending] every cell lies in the buffer.  Missing: the claim for all
    component lists is false, see below. *)
Theorem C20_in_buffer_partial (cs : list ctype) (max : N) (bs : list block) :
  Forall valid_type cs → descending [entity_type] cs → layout cs = Some (max, bs) →
  ∀ k b i x, bs !! k = Some b → i < max → in_cell b i x → x < 16384.
Proof.
  change 16384 with chunk_bytes.
  intros Hv Hd Hl k b i x Hb Hi Hx. destruct (descending_layout cs max bs Hv Hd Hl) as (e & He & E & _).
  destruct (add_blocks_spec _ _ _ _ _ E) as (_ & _ & H & _). destruct (H _ _ Hb) as [_ Hend].
  unfold in_cell, cell_offset in Hx. nia.
Qed.

(** C21, partial: under [descending], if the buffer itself is aligned for every component, every
    component is aligned.  Missing: false for other lists, see below. *)
Theorem C21_aligned_partial (cs : list ctype) (max : N) (bs : list block) (base : N) :
  Forall valid_type cs → descending [entity_type] cs → layout cs = Some (max, bs) →
  Forall (λ c, (ct_align c | base)) (entity_type :: cs) →
  ∀ k b i, bs !! k = Some b → (ct_align (b_type b) | base + cell_offset b i).
Proof.
  intros Hv Hd Hl Hbase k b i Hb. destruct (descending_layout cs max bs Hv Hd Hl) as (e & _ & E & Hal).
  destruct (add_blocks_spec _ _ _ _ _ E) as (_ & Hty & _ & _).
  assert (b_type b ∈ entity_type :: cs) as Hin.
  { rewrite <-Hty. apply elem_of_list_fmap. exists b. split; [done|]. by eapply elem_of_list_lookup_2. }
  rewrite Forall_forall in Hbase. rewrite Forall_lookup in Hal.
  apply N.divide_add_r; [by apply Hbase|]. unfold cell_offset. apply N.divide_add_r; [by eapply Hal|].
  apply N.divide_mul_r.
  rewrite elem_of_cons in Hin. destruct Hin as [->|Hin]; [by exists 2|].
  rewrite Forall_forall in Hv. by apply Hv.
Qed.

(** [descending] holds in particular when all components share one alignment of at most 8. *)
Lemma uniform_descending a cs before :
  Forall valid_type cs → Forall (λ c, ct_align c = a) cs → Forall (λ b, (a | ct_size b)) before →
  descending before cs.
Proof.
  revert before. induction cs as [|c cs IH]; intros before Hv Hu Hb; [done|].
  apply Forall_cons in Hv as [(_ & _ & Hc) Hv]. apply Forall_cons in Hu as [<- Hu].
  split; [done|]. apply IH; [done|done|]. apply Forall_app. split; [done|]. by constructor.
Qed.

Theorem C20_C21_uniform_alignment (a : N) (cs : list ctype) :
  Forall valid_type cs → Forall (λ c, ct_align c = a) cs → (a | 8) → descending [entity_type] cs.
Proof.
  intros Hv Hu Ha. apply (uniform_descending a); [done|done|]. constructor; [done|constructor].
Qed.

(** The overrun is never larger than the sum of the alignments. *)
Lemma add_blocks_end max cs off bs e :
  Forall valid_type cs → add_blocks max off cs = (bs, e) →
  e <= off + max * sizes cs + foldl (λ r c, r + ct_align c) 0 cs.
Proof.
  assert (Hacc : ∀ cs r, foldl (λ r c, r + ct_align c) r cs = r + foldl (λ r c, r + ct_align c) 0 cs).
  { clear. induction cs as [|c cs IH]; intros r; cbn [foldl]; [lia|]. rewrite IH, (IH (0 + _)). lia. }
  revert off bs e. induction cs as [|c cs IH]; intros off bs e Hv H; cbn [add_blocks] in H.
  - injection H as <- <-. lia.
  - apply Forall_cons in Hv as [(Hp & _) Hv]. cbn [add_block] in H.
    destruct (add_blocks max _ cs) as [bs' e'] eqn:E. injection H as <- <-.
    specialize (IH _ _ _ Hv E). rewrite sizes_cons. cbn [foldl]. rewrite Hacc.
    rewrite mod_2n_pow2 in IH by done. pose proof (pow2_pos _ Hp).
    pose proof (N.mod_upper_bound off (ct_align c)). lia.
Qed.

Theorem C20_overrun_bounded (cs : list ctype) (max : N) (bs : list block) :
  Forall valid_type cs → layout cs = Some (max, bs) →
  ∀ k b i x, bs !! k = Some b → i < max → in_cell b i x →
    x < 16384 + 4 + foldl (λ r c, r + ct_align c) 0 cs.
Proof.
  change 16384 with chunk_bytes.
  intros Hv Hl k b i x Hb Hi Hx. unfold layout in Hl.
  destruct (get_max_size cs) as [m|] eqn:Em; [|done]. cbn [mbind option_bind] in Hl.
  injection Hl as -> Hbs. unfold init_blocks in Hbs.
  destruct (add_blocks max 0 (entity_type :: cs)) as [bs' e] eqn:E. cbn in Hbs. subst bs'.
  destruct (add_blocks_spec _ _ _ _ _ E) as (_ & _ & H & _). destruct (H _ _ Hb) as [_ Hend].
  assert (valid_type entity_type) as Hent by exact entity_valid.
  pose proof (add_blocks_end _ _ _ _ _ (proj2 (Forall_cons _ _ _) (conj Hent Hv)) E) as He.
  pose proof (max_fits _ _ Em) as Hm. rewrite packed_sizes in Hm.
  rewrite sizes_cons in He. cbn [foldl ct_size ct_align entity_type] in He.
  assert (Hacc : ∀ cs r, foldl (λ r c, r + ct_align c) r cs = r + foldl (λ r c, r + ct_align c) 0 cs).
  { clear. induction cs as [|c cs IH]; intros r; cbn [foldl]; [lia|]. rewrite IH, (IH (0 + _)). lia. }
  rewrite Hacc in He. unfold in_cell, cell_offset in Hx. nia.
Qed.

(** C20 is false in general: a component of 64 bytes aligned to 64 followed by one of 2 bytes ends
    10 bytes behind the buffer; with natural SIMD types, one of 4 bytes and three of 16 bytes end 16
    bytes behind it. *)
Theorem C20_in_buffer_refuted :
  let cs := [CType 4 4; CType 16 16; CType 16 16; CType 16 16] in
  Forall valid_type cs ∧
  ∃ max bs b i x, layout cs = Some (max, bs) ∧ b ∈ bs ∧ i < max ∧ in_cell b i x ∧ 16384 <= x.
Proof.
  cbv zeta. split.
  { repeat constructor; cbn; try lia; (by exists 2) || (by exists 4) || (by exists 1). }
  eexists _, _, _, _, 16399. split; [vm_compute; reflexivity|]. split.
  { apply elem_of_list_further, elem_of_list_further, elem_of_list_further, elem_of_list_further, elem_of_list_here. }
  split; [|split]; [|unfold in_cell, cell_offset; cbn [b_offset b_type ct_size]|].
  2: { instantiate (1 := 272). lia. }
  all: vm_compute; (done || lia).
Qed.

(** C21 is false in general: a 1-byte component followed by an 8-byte one (a bool and a double). *)
Theorem C21_aligned_refuted :
  let cs := [CType 1 1; CType 8 8] in
  Forall valid_type cs ∧
  ∃ max bs b, layout cs = Some (max, bs) ∧ b ∈ bs ∧ 0 < max ∧
    ∀ base, (ct_align (b_type b) | base) → ¬ (ct_align (b_type b) | base + cell_offset b 0).
Proof.
  cbv zeta. split.
  { repeat constructor; cbn; try lia; (by exists 0) || (by exists 3) || (by exists 1). }
  eexists _, _, _. split; [vm_compute; reflexivity|]. split.
  { apply elem_of_list_further, elem_of_list_further, elem_of_list_here. }
  split; [lia|]. unfold cell_offset. cbn [b_offset b_type ct_align ct_size]. intros base [q ->] [r Hr]. lia.
Qed.

(** Even a single component can be misplaced: 32 bytes aligned to 16, in a buffer aligned to 16. *)
Theorem C21_single_component_refuted :
  Forall valid_type [CType 32 16] ∧
  ∃ max bs b, layout [CType 32 16] = Some (max, bs) ∧ b ∈ bs ∧ 0 < max ∧
    ∀ base, (16 | base) → ¬ (16 | base + cell_offset b 0).
Proof.
  split.
  { repeat constructor; cbn; try lia; (by exists 4) || (by exists 2). }
  eexists _, _, _. split; [vm_compute; reflexivity|]. split.
  { apply elem_of_list_further, elem_of_list_here. }
  split; [lia|]. unfold cell_offset. cbn [b_offset b_type ct_align ct_size]. intros base [q ->] [r Hr]. lia.
Qed.

(** One row placed in the buffer in order: aligned offsets that do not overlap. *)
Fixpoint row_placed (from : N) (cs : list ctype) (offs : list N) : Prop :=
  match cs, offs with
  | [], [] => from <= 16384
  | c :: cs, o :: offs => from <= o ∧ (ct_align c | o) ∧ row_placed (o + ct_size c) cs offs
  | _, _ => False
  end.

(** C20, refusal, partial: exact when every alignment divides 4 (and the sizes before, as in a packed row).  Missing:
    false for alignment 8, see below. *)
Lemma elements_packed cs before e : Forall valid_type cs → descending before cs →
  Forall (λ c, (ct_align c | 4)) cs → e = 4 + sizes before → foldl add_elements e cs = e + sizes cs.
Proof.
  revert before e. induction cs as [|c cs IH]; intros before e Hv Hd Ha He; [change (sizes []) with 0; cbn [foldl]; lia|].
  apply Forall_cons in Hv as [(Hp & _ & _) Hv]. apply Forall_cons in Ha as [Hc Ha]. destruct Hd as [Hb Hd].
  cbn [foldl]. assert (add_elements e c = e + ct_size c) as ->.
  { unfold add_elements. rewrite mod_2n_divide; [lia|done|]. subst e. apply N.divide_add_r; [done|]. by apply divide_sizes. }
  rewrite (IH (before ++ [c])); [rewrite sizes_cons; lia|done|done|done|].
  rewrite sizes_app, (sizes_cons c []). change (sizes []) with 0. lia.
Qed.
Theorem C20_refused_exactly_partial (cs : list ctype) :
  Forall valid_type cs → descending [entity_type] cs → Forall (λ c, (ct_align c | 4)) cs →
  (layout cs = None ↔ 16384 < 8 + sizes cs).
Proof.
  change 16384 with chunk_bytes.
  intros Hv Hd Ha. split; [|apply C20_too_large_is_refused]. unfold layout, get_max_size.
  assert (aligned_components_size cs = 8 + sizes cs) as ->.
  { unfold aligned_components_size. rewrite entity_elements. rewrite (elements_packed cs [entity_type] 12) by done.
    change alloc_alignment with 4. lia. }
  case_decide; done.
Qed.

(** C20, refusal, is false in the other direction: a row that fits is refused, with one component of 8-byte alignment
    that fills the buffer exactly, or with little padding. *)
Theorem C20_refuses_full_row_refuted :
  valid_type (CType 16376 8) ∧ 8 + sizes [CType 16376 8] = 16384 ∧ (8 | 8) ∧ layout [CType 16376 8] = None.
Proof.
  split; [|split; [|split]]; try (by vm_compute).
  - split; [by exists 3|]. split; [done|]. by exists 2047.
  - by exists 1.
Qed.
Theorem C20_refuses_fitting_row_refuted :
  let cs := [CType 16300 1; CType 64 64] in
  Forall valid_type cs ∧ row_placed 0 (entity_type :: cs) [0; 8; 16320] ∧ layout cs = None.
Proof.
  cbv zeta. split; [|split].
  - repeat constructor; cbn; try lia; (by exists 0) || (by exists 6) || (by exists 16300) || (by exists 1).
  - cbn [row_placed ct_size ct_align entity_type].
    repeat split; first [lia|by exists 0|by exists 8|by exists 255].
  - vm_compute. done.
Qed.

(** Hypotheses are met by a position/velocity archetype of 4-byte floats. *)
Example C20_example :
  Forall valid_type [CType 12 4; CType 12 4; CType 4 4] ∧
  descending [entity_type] [CType 12 4; CType 12 4; CType 4 4] ∧
  layout [CType 12 4; CType 12 4; CType 4 4] =
    Some (455, [Block 0 entity_type; Block 3640 (CType 12 4); Block 9100 (CType 12 4); Block 14560 (CType 4 4)]).
Proof.
  split; [|split].
  - repeat constructor; cbn; try lia; (by exists 2) || (by exists 3) || (by exists 1).
  - repeat constructor; (by exists 2) || (by exists 3).
  - vm_compute. done.
Qed.

Print Assumptions C19_cells_disjoint.
Print Assumptions C19_blocks_in_order.
Print Assumptions C20_too_large_is_refused.
Print Assumptions C20_in_buffer_partial.
Print Assumptions C20_overrun_bounded.
Print Assumptions C20_in_buffer_refuted.
Print Assumptions C20_refuses_fitting_row_refuted.
Print Assumptions C20_refused_exactly_partial.
Print Assumptions C20_refuses_full_row_refuted.
Print Assumptions C20_C21_uniform_alignment.
Print Assumptions C21_aligned_partial.
Print Assumptions C21_aligned_refuted.
Print Assumptions C21_single_component_refuted.
