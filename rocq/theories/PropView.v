(** C14-C16: views. *)
From Verif Require Import Base Bits Layout PropLayout HandlePool HandleSpec HandlePoolProofs SparseMap SparseMapProofs
  HashTable HashTableProofs HashTableMap Bitset BitsetProofs ComponentSet ComponentSetProofs
  Chunk ChunkProofs Archetype ArchetypeProofs Registry RegistryStore RegistryProofs View ViewProofs RegSpec RegSpecProofs
  RegObs RegRun PropRegistry.

(** The callback that changes nothing: iterating. *)
Definition look : callback := λ _ _ _, None.

Section props.
Context (U : universe).
Hypothesis HU : u_wf U.

Lemma has_world n r s h cs : reached U n r s → below_wrap (2 * n) → h ∈ sr_issued s → (rg_has h cs r).2 = Ok true →
  ∃ m, sr_world s !! h = Some m.
Proof.
  intros Hr Hbw Hi Hh. destruct (sr_world s !! h) as [m|] eqn:Hw; [eauto|]. exfalso.
  destruct (reached_ri U HU _ _ _ Hr Hbw) as (iss & hp & [_ H _]).
  destruct (out_specs U _ _ _ _ _ _ _ _ h H Hw) as (_ & _ & _ & _ & _ & E & _). by rewrite E in Hh.
Qed.

(** C15: [es] are the matching entities with their components before the calls; the callback may look at the
    earlier calls. *)
Theorem C15_each n r s rq f : reached U n r s → below_wrap (2 * S n) → rq ≠ [] → VReq (u_ent U) true ∉ rq → sr_failed s = false →
  ∃ r' es, rg_each U rq f r = (r', Ok (args_of U rq <$> es)) ∧ enumerates U rq (sr_world s) es ∧
    (∀ (k : nat) h m c, es !! k = Some (h, m) → c ≠ u_ent U →
       (rg_get h c r').2 =
       match m !! c with
       | None => Throw ComponentNotFound
       | Some v => Ok (CVal match f (args_of U rq <$> take k es) (args_of U rq (h, m)) c with
                            | Some v' => if decide (VReq c true ∈ rq) then v' else v
                            | None => v
                            end)
       end) ∧
    (∀ g, g ∈ sr_issued s → g ∉ sr_pending s → g ∉ es.*1 → same_obs U r r' g) ∧
    (∀ g cs, g ∈ sr_issued s → g ∉ sr_pending s → (rg_has g cs r').2 = (rg_has g cs r).2) ∧
    rg_size r' = rg_size r.
Proof.
  intros Hr Hbw Hne Hent Hf. destruct (run_rop U (OEach rq f) r) as [r' o] eqn:E.
  destruct (reached_step U HU _ _ _ (OEach rq f) _ _ Hr Hbw (conj Hne Hent) E) as [(s' & Hn & Hr' & _)|[_ Hh]]; [|cbn in Hh; destruct Hh; congruence].
  destruct Hn as (es & w' & He & -> & Hc & ->). apply mapM_ok in E as (l & E & [= <-]).
  pose proof (reached_shows U HU _ _ _ Hr (bw_half _ Hbw)) as Hs. pose proof (reached_shows U HU _ _ _ Hr' Hbw) as Hs'.
  pose proof (called_dom U _ _ _ _ _ He Hc) as Hdom. pose proof He as [Hnd Hes]. pose proof Hc as [Hca Hco].
  pose proof (reached_swf U HU _ _ _ Hr) as (W1 & _).
  exists r', es. split; [done|]. split; [done|]. split; [|split; [|split]].
  - intros k h m c Hk Hce. destruct (Hca _ _ _ Hk) as (m' & Hm' & Ha). pose proof Hk as Hin. apply elem_of_list_lookup_2, Hes in Hin as [Hm _].
    destruct (world_live U HU _ _ _ _ _ Hr (bw_half _ Hbw) Hm) as (Hi & Hd & Hp).
    rewrite (sh_get _ _ _ Hs') by done. unfold a_get. cbn [snd sr_world with_world]. rewrite Hm', Ha.
    destruct (m !! c) as [v|]; [|done]. by destruct (f _ _ c).
  - intros g Hgi Hgp Hg. eapply same_obs_from; [exact Hs|exact Hs'|..]; cbn; try done. by apply Hco.
  - intros g cs Hgi Hgp. rewrite (sh_has _ _ _ Hs), (sh_has _ _ _ Hs') by done. cbn [snd]. unfold a_has. cbn [sr_world with_world].
    destruct (decide (g ∈ es.*1)) as [Hin|Hin]; [|by rewrite Hco].
    apply elem_of_list_fmap in Hin as ([h' m] & Eg & Hin). cbn in Eg. subst h'. pose proof Hin as Hin'. apply elem_of_list_lookup in Hin as [k Hk].
    destruct (Hca _ _ _ Hk) as (m' & -> & Ha). apply Hes in Hin' as [-> _]. f_equal. apply bool_decide_ext. apply Forall_proper; [|done].
    intros c. rewrite Ha. destruct (m !! c); [|done]. destruct (f _ _ c); split; eauto.
  - rewrite (sh_size _ _ _ Hs), (sh_size _ _ _ Hs'). cbn. rewrite <- !size_dom. do 2 f_equal. apply set_eq. intros g. by rewrite !elem_of_dom.
Qed.

(** C14 *)
Theorem C14_view n r s rq : reached U n r s → below_wrap (2 * S n) → rq ≠ [] → VReq (u_ent U) true ∉ rq → sr_failed s = false →
  ∃ r' es, rg_each U rq look r = (r', Ok (args_of U rq <$> es)) ∧ enumerates U rq (sr_world s) es ∧ all_same U s r r'.
Proof.
  intros Hr Hbw Hne Hent Hf. destruct (C15_each _ _ _ rq look Hr Hbw Hne Hent Hf) as (r' & es & E & He & H1 & H2 & H3 & H4).
  exists r', es. split; [done|]. split; [done|]. split; [|done]. intros g Hgi Hgp.
  destruct (decide (g ∈ es.*1)) as [Hin|Hin]; [|by apply H2].
  apply elem_of_list_fmap in Hin as ([h' m] & Eg & Hin). cbn in Eg. subst h'. pose proof Hin as Hin'. apply elem_of_list_lookup in Hin as [k Hk].
  apply He in Hin' as [Hm _]. destruct (C10_get_has U HU _ _ _ _ _ Hr (bw_half _ Hbw) Hm) as [Hg _].
  destruct (world_live U HU _ _ _ _ _ Hr (bw_half _ Hbw) Hm) as (_ & Hd & _).
  destruct (run_rop U (OEach rq look) r) as [r1 o] eqn:E1.
  destruct (reached_step U HU _ _ _ (OEach rq look) _ _ Hr Hbw (conj Hne Hent) E1) as [(s' & Hn & Hr' & _)|[_ Hh]]; [|cbn in Hh; destruct Hh; congruence].
  destruct Hn as (es1 & w' & He1 & -> & Hc & ->). apply mapM_ok in E1 as (l & E1 & [= <-]). rewrite E in E1. injection E1 as <- _.
  pose proof (reached_shows U HU _ _ _ Hr (bw_half _ Hbw)) as Hs. pose proof (reached_shows U HU _ _ _ Hr' Hbw) as Hs'.
  split; [|split; [|by auto]].
  - rewrite (sh_alive _ _ _ Hs), (sh_alive _ _ _ Hs') by done. done.
  - intros c Hce. rewrite (H1 _ _ _ _ Hk Hce), Hg by done. done.
Qed.

(** The same without the abstract machine: a view of the entity and the components [qs]. *)
Theorem C14_view_observed n r s qs : reached U n r s → below_wrap (2 * S n) → (∀ q, q ∈ qs → vr_cid q ≠ u_ent U) → sr_failed s = false →
  ∃ r' log, rg_each U (VReq (u_ent U) false :: qs) look r = (r', Ok log) ∧
    (∀ l, l ∈ log → ∃ h xs, l = CEnt h :: xs) ∧ NoDup (head <$> log) ∧
    ∀ h xs, (CEnt h :: xs) ∈ log ↔ h ∈ sr_issued s ∧ (rg_has h (vr_cid <$> qs) r).2 = Ok true ∧
      Forall2 (λ q x, (rg_get h (vr_cid q) r).2 = Ok x) qs xs.
Proof.
  intros Hr Hbw Hq Hf. assert (VReq (u_ent U) true ∉ VReq (u_ent U) false :: qs) as Hent.
  { intros [?|Hin]%elem_of_cons; [done|]. by apply (Hq _ Hin). }
  destruct (C14_view _ _ _ (VReq (u_ent U) false :: qs) Hr Hbw ltac:(done) Hent Hf) as (r' & es & E & [Hnd He] & _).
  exists r', (args_of U (VReq (u_ent U) false :: qs) <$> es). split; [done|].
  assert (∀ e, args_of U (VReq (u_ent U) false :: qs) e = CEnt e.1 :: args_of U qs e) as Ea.
  { intros e. unfold args_of. cbn. unfold arg_of at 1. cbn. by rewrite decide_True. }
  assert (∀ h m xs, sr_world s !! h = Some m →
    (matches U qs (h, m) ∧ xs = args_of U qs (h, m) ↔ (rg_has h (vr_cid <$> qs) r).2 = Ok true ∧ Forall2 (λ q x, (rg_get h (vr_cid q) r).2 = Ok x) qs xs)) as Hm.
  { intros h m xs Hw. destruct (C10_get_has U HU _ _ _ _ _ Hr (bw_half _ Hbw) Hw) as (Hg & Hh & _). rewrite Hh. cbn [snd].
    assert (∀ qs', (∀ q, q ∈ qs' → vr_cid q ≠ u_ent U) → ∀ xs, matches U qs' (h, m) ∧ xs = args_of U qs' (h, m) ↔
      Forall2 (λ q x, (rg_get h (vr_cid q) r).2 = Ok x) qs' xs) as Hx.
    { clear Hq Ea He E Hent xs Hh. induction qs' as [|q qs' IH]; intros Hq' xs.
      - split; [intros [_ ->]; constructor|]. intros ->%Forall2_nil_inv_l. split; [constructor|done].
      - assert (vr_cid q ≠ u_ent U) as Hqe by (apply Hq'; by left). assert (∀ q0, q0 ∈ qs' → vr_cid q0 ≠ u_ent U) as Hq2 by (intros; apply Hq'; by right).
        unfold matches, args_of. rewrite Forall_cons. cbn [omap list_omap fst snd]. unfold arg_of at 1 3. rewrite decide_False by done.
        cbn [fst snd]. destruct (m !! vr_cid q) as [v|] eqn:Ev; cbn.
        + split.
          * intros [[_ H1] ->]. constructor; [rewrite Hg by done; by rewrite Ev|]. by apply IH.
          * intros H. apply Forall2_cons_inv_l in H as (x & xs' & H1 & H2 & ->). apply IH in H2 as [H2 ->]; [|done].
            rewrite Hg, Ev in H1 by done. injection H1 as <-. split; [split; [eauto|done]|done].
        + split; [intros [[[? ?] _] _]; done|]. intros H. apply Forall2_cons_inv_l in H as (x & xs' & H1 & H2 & ->). rewrite Hg, Ev in H1; done. }
    rewrite Hx by done. split; [|by intros [_ ?]]. intros H. split; [|done]. apply Hx in H as [Hmt _]; [|done].
    f_equal. apply bool_decide_eq_true. rewrite Forall_fmap. unfold matches in Hmt. rewrite Forall_forall in *. intros q Hin.
    specialize (Hmt q Hin). unfold arg_of in Hmt. rewrite decide_False in Hmt by (by apply Hq). cbn in Hmt. by apply fmap_is_Some in Hmt. }
  split; [|split].
  - intros l Hl. apply elem_of_list_fmap in Hl as (e & -> & _). rewrite Ea. eauto.
  - rewrite <- list_fmap_compose. assert (head ∘ args_of U (VReq (u_ent U) false :: qs) <$> es = (Some ∘ CEnt) <$> es.*1) as ->.
    { rewrite <- list_fmap_compose. apply list_fmap_ext. intros i e _. unfold compose. by rewrite Ea. }
    apply NoDup_fmap_2; [|done]. by intros ? ? [= ->].
  - intros h xs. rewrite elem_of_list_fmap. split.
    + intros ([h' m] & Exs & Hin). rewrite Ea in Exs. cbn in Exs. injection Exs as -> ->. apply He in Hin as [Hw Hmt].
      destruct (world_live U HU _ _ _ _ _ Hr (bw_half _ Hbw) Hw) as (Hi & _). split; [done|]. apply (Hm h' m _ Hw). split; [|done]. by inversion Hmt.
    + intros (Hi & Hh & HF). destruct (has_world _ _ _ _ _ Hr (bw_half _ Hbw) Hi Hh) as [m Hw].
      destruct (proj2 (Hm h m xs Hw) (conj Hh HF)) as [Hmt ->]. exists (h, m). split; [by rewrite Ea|]. apply He. split; [done|].
      constructor; [|done]. unfold arg_of. cbn. rewrite decide_True by done. eauto.
Qed.

(** C16 *)
Theorem C16_single n r s rq : reached U n r s → below_wrap (2 * n) → rq ≠ [] → sr_failed s = false →
  ∃ x, rg_single U rq r = (r, Ok x) ∧
    (x = None ↔ ¬ ∃ h m, sr_world s !! h = Some m ∧ matches U rq (h, m)) ∧
    (∀ l, x = Some l → ∃ h m, sr_world s !! h = Some m ∧ matches U rq (h, m) ∧ l = args_of U rq (h, m)).
Proof.
  intros Hr Hbw Hne Hf. destruct (reached_ri U HU _ _ _ Hr Hbw) as (iss & hp & [_ H Hnn]).
  destruct (single_spec U HU _ _ _ _ _ _ _ _ rq H Hne) as [(x & E & Hx1 & Hx2)|[Hn _]]; [|by destruct Hn; auto].
  exists (row_vals U rq <$> x). split; [done|]. destruct x as [[h m]|]; cbn.
  - destruct (Hx1 _ eq_refl) as [Hw Hm]. apply has_all_matches in Hm. cbn in *. split.
    + split; [done|]. intros Hno. destruct Hno. eauto.
    + intros l [= <-]. exists h, m. rewrite args_eq. auto.
  - split; [|done]. split; [|done]. intros _ (h & m & Hw & Hm). apply has_all_matches in Hm. by eapply Hx2.
Qed.
End props.

(** * Examples *)
Example ex_C14 := C14_view_observed U0 U0_wf 6 r0 s0 [VReq 1 false; VReq 2 false] ex_reached bw7.
Example ex_C14_hyps : (∀ q, q ∈ [VReq 1 false; VReq 2 false] → vr_cid q ≠ u_ent U0) ∧ sr_failed s0 = false.
Proof. split; [|done]. intros q. rewrite !elem_of_cons. intros [->|[->|[]%elem_of_nil]]; done. Qed.
Example ex_C14_run : (rg_each U0 [VReq 0 false; VReq 1 false; VReq 2 false] look r0).2 =
  Ok [[CEnt e2; CVal (Val 12); CVal (Val 22)]; [CEnt e0; CVal (Val 10); CVal (Val 20)]] ∨
  (rg_each U0 [VReq 0 false; VReq 1 false; VReq 2 false] look r0).2 =
  Ok [[CEnt e0; CVal (Val 10); CVal (Val 20)]; [CEnt e2; CVal (Val 12); CVal (Val 22)]].
Proof. vm_compute. tauto. Qed.

(** A callback that numbers the entities it is called with. *)
Definition numbering : callback := λ log _ c, if decide (c = 1%N) then Some (Val (N.of_nat (length log))) else None.
Example ex_C15 := C15_each U0 U0_wf 6 r0 s0 [VReq 1 true; VReq 2 false] numbering ex_reached bw7.
Example ex_C15_run :
  let r' := (rg_each U0 [VReq 1 true; VReq 2 false] numbering r0).1 in
  ((rg_get e0 1 r').2, (rg_get e2 1 r').2) = (Ok (CVal (Val 0)), Ok (CVal (Val 1))) ∨
  ((rg_get e0 1 r').2, (rg_get e2 1 r').2) = (Ok (CVal (Val 1)), Ok (CVal (Val 0))).
Proof. vm_compute. tauto. Qed.
Example ex_C16 := C16_single U0 U0_wf 6 r0 s0 [VReq 3 false] ex_reached.
Example ex_C16_run : (rg_single U0 [VReq 3 false; VReq 0 false] r0).2 = Ok (Some [CVal (Val 30); CEnt e0]) ∧
  (rg_single U0 [VReq 4 false] r0).2 = Ok None.
Proof. by vm_compute. Qed.

Print Assumptions C14_view.
Print Assumptions C14_view_observed.
Print Assumptions C15_each.
Print Assumptions C16_single.
