(** The registries follow the abstract machine. *)
From Verif Require Import Base Bits Layout PropLayout HandlePool HandleSpec HandlePoolProofs SparseMap SparseMapProofs
  HashTable HashTableProofs HashTableMap Bitset BitsetProofs ComponentSet ComponentSetProofs
  Chunk ChunkProofs Archetype ArchetypeProofs Registry RegistryStore RegistryProofs View ViewProofs RegSpec.

Section proofs.
Context (U : universe).
Hypothesis HU : u_wf U.

(** The pool has handed out [iss], among them the handles that failed operations dropped. *)
Record ri (n : nat) (r : registry) (s : sreg) (iss : list handle) (hp : store) : Prop := {
  ri_iss : sr_issued s ⊆ iss;
  ri_inv : rinv U (negb (sr_leaky s)) n r iss (sr_dead s) (sr_pending s) hp (sr_world s);
  ri_nn : sr_failed s = false → nonull r }.

(** What a step keeps of the absence of holes. *)
Definition hkeep (hp : store) (s' : sreg) (hp' : store) : Prop :=
  sr_leaky s' = false → nohole hp → le2 hp → nohole hp'.

Lemma ri_mono n n' r s iss hp : n ≤ n' → ri n r s iss hp → ri n' r s iss hp.
Proof. intros Hn []. split; [done|by eapply rinv_mono|done]. Qed.

Lemma ri_init n : ri n rg_init sreg_init [] [].
Proof.
  split; [done|apply rinv_init|]. intros _ key.
  destruct (empty_wf (K := bitset) (V := option nat) bs_hash 16) as [_ Habs]; [by exists 4%N|].
  change (ht_abs (ht_make 16) !! key ≠ Some (None : option nat)). by rewrite Habs, lookup_empty.
Qed.

Lemma hole_free_iff n r s iss hp : ri n r s iss hp → hole_free r ↔ nohole hp.
Proof.
  intros [_ H _]. pose proof (rv_st _ _ _ _ _ _ _ _ _ H) as Hst. split.
  - intros Hh a x Ha [Hl Hlen]. destruct (st_arch U _ _ _ _ _ Hst Ha) as (ar & Har & Hrep).
    destruct (ar_last U _ _ _ _ Hrep) as (rows & k & _ & Hrl & _ & Hkl & Hck). rewrite Hl in Hrl. injection Hrl as <-.
    pose proof (Hh a ar k Har Hkl (cr_size _ _ _ _ _ _ _ Hck)) as Hx. rewrite (ar_len U _ _ _ _ Hrep) in Hx. lia.
  - intros Hn a ar k Har Hk Hk0.
    destruct (Forall2_lookup_l _ _ _ _ _ (si_heap _ _ _ _ Hst) Har) as (x & Hx & Hrep).
    destruct (ar_last U _ _ _ _ Hrep) as (rows & k' & _ & Hrl & _ & Hkl & Hck). rewrite Hk in Hkl. injection Hkl as <-.
    rewrite (ar_len U _ _ _ _ Hrep). destruct (decide (length x.2 ≤ 1)); [done|]. exfalso. apply (Hn a x Hx). split; [|lia].
    rewrite Hrl. f_equal. apply nil_length_inv. rewrite <- (cr_size _ _ _ _ _ _ _ Hck). done.
Qed.

Lemma small_iff n r s iss hp : ri n r s iss hp → small r ↔ le2 hp.
Proof.
  intros [_ H _]. pose proof (rv_st _ _ _ _ _ _ _ _ _ H) as Hst. split.
  - intros Hs a x Ha. destruct (st_arch U _ _ _ _ _ Hst Ha) as (ar & Har & Hrep).
    rewrite <- (ar_len U _ _ _ _ Hrep). by eapply Hs.
  - intros Hs a ar Har. destruct (Forall2_lookup_l _ _ _ _ _ (si_heap _ _ _ _ Hst) Har) as (x & Hx & Hrep).
    rewrite (ar_len U _ _ _ _ Hrep). by eapply Hs.
Qed.

Lemma trap_trapped n r s iss hp h : ri n r s iss hp → trap hp h → trapped r h.
Proof.
  intros [_ H _] (a & x & p & m & rows & Ha & Hp & Hrows & Hc). pose proof (rv_st _ _ _ _ _ _ _ _ _ H) as Hst.
  destruct (st_arch U _ _ _ _ _ Hst Ha) as (ar & Har & Hrep).
  assert (hrow hp (a, p) = Some (h, m)) as Hq by (unfold hrow; cbn [fst snd]; by rewrite Ha).
  assert (sr_world s !! h = Some m) as Hw by (apply (lw_world _ _ _ (rv_lw _ _ _ _ _ _ _ _ _ H)); eauto).
  destruct (loc_in U H h m Hw) as (a' & p' & cs & rowss & rows' & El & Ha' & Hp' & Hrows' & _ & Hl).
  assert ((a', p') = (a, p)) as [= -> ->].
  { apply (lw_same_id (rv_lw _ _ _ _ _ _ _ _ _ H) _ _ (h, m) (h, m)); [|done|done]. unfold hrow; cbn [fst snd]. by rewrite Ha'. }
  rewrite Ha in Ha'. injection Ha' as ->. cbn [fst snd] in *.
  destruct (ar_chunk U _ _ _ _ _ _ Hrep Hrows) as (k & Hk & Hck). destruct (ar_last U _ _ _ _ Hrep) as (lr & l & _ & Hlr & _ & Hll & Hcl).
  destruct (at_Some _ _ _ Hp) as (rows0 & E0 & Hlt%lookup_lt_Some). rewrite Hrows in E0. injection E0 as <-.
  exists a, p.1, p.2, ar, k, l. split; [by rewrite El|]. split; [done|]. split; [done|]. rewrite (cr_size _ _ _ _ _ _ _ Hck), (cr_size _ _ _ _ _ _ _ Hcl).
  split; [|split; [done|]].
  - destruct (decide (S p.2 = length rows)); [|lia]. destruct Hc. by left.
  - destruct (decide (lr = [])) as [->|Hn]; [done|]. destruct Hc. right. congruence.
Qed.
Lemma trapped_hole r h : trapped r h → ¬ hole_free r.
Proof.
  intros (a & c & i & ar & k & l & _ & Ha & Hk & Hi & Hl & H0) Hf. specialize (Hf a ar l Ha Hl H0).
  rewrite last_lookup in Hl. pose proof (lookup_lt_Some _ _ _ Hk). assert (c = pred (length (ar_chunks ar))) as -> by lia. rewrite Hk in Hl. injection Hl as ->. lia.
Qed.
Lemma null_has n r s iss hp : ri n r s iss hp → ¬ nonull r → has_null r.
Proof.
  intros [_ H _] Hn. pose proof (iter_perm bs_hash _ (si_twf _ _ _ _ (rv_st _ _ _ _ _ _ _ _ _ H))) as Hit.
  assert (∃ key, ht_abs (rg_table r) !! key = Some None) as [key Hk].
  { destruct (decide (map_Forall (λ _ v, v ≠ None) (ht_abs (rg_table r)))) as [Hd|Hd].
    - destruct Hn. intros key Hk. by apply (Hd key None).
    - apply map_not_Forall in Hd as (key & v & Hk & Hv); [|apply _]. destruct v; [by destruct Hv|]. eauto. }
  exists key. rewrite Hit. by apply elem_of_map_to_list.
Qed.

(** Views *)
Lemma args_eq rq r : row_vals U rq r = args_of U rq r.
Proof. unfold row_vals, args_of. induction rq as [|q rq IH]; [done|]. cbn. unfold rcell at 1, arg_of at 1. destruct (decide _); cbn; by rewrite IH || (destruct (r.2 !! vr_cid q); cbn; by rewrite IH). Qed.

Lemma has_all_matches rq r : has_all U rq r.2 ↔ matches U rq r.
Proof.
  unfold has_all, matches. rewrite !Forall_forall. split; intros H q Hq; specialize (H q Hq); unfold arg_of in *.
  - case_decide; [eauto|]. destruct H as [?|[v ->]]; [done|]. eauto.
  - case_decide; [by left|]. right. by apply fmap_is_Some in H.
Qed.

Lemma enum_perm rq w es : es ≡ₚ filter (λ r, has_all U rq r.2) (map_to_list w) → enumerates U rq w es.
Proof.
  intros Hp. split.
  - rewrite Hp. assert (NoDup (filter (λ r : row, has_all U rq r.2) (map_to_list w))) as Hnd.
    { apply NoDup_filter, NoDup_map_to_list. }
    apply NoDup_fmap_2_strong; [|done]. intros [h m] [h' m'] H1 H2 E. cbn in E. subst h'.
    apply elem_of_list_filter in H1 as [_ H1%elem_of_map_to_list]. apply elem_of_list_filter in H2 as [_ H2%elem_of_map_to_list]. congruence.
  - intros h m. rewrite Hp, elem_of_list_filter, elem_of_map_to_list, has_all_matches. naive_solver.
Qed.

Lemma world_upd_other rq f es : ∀ log w h, h ∉ es.*1 → world_upd U rq f log es w !! h = w !! h.
Proof.
  induction es as [|e es IH]; intros log w h Hh; [done|]. cbn [world_upd]. cbn in Hh. apply not_elem_of_cons in Hh as [? ?].
  rewrite IH by done. by rewrite lookup_insert_ne.
Qed.

Lemma world_upd_at rq f es : ∀ log w (k : nat) e, NoDup es.*1 → es !! k = Some e →
  world_upd U rq f log es w !! e.1 =
    Some (row_upd rq (f (log ++ (row_vals U rq <$> take k es)) (row_vals U rq e)) e).2.
Proof.
  induction es as [|x es IH]; intros log w k e Hnd Hk; [done|]. cbn [world_upd]. cbn in Hnd. apply NoDup_cons in Hnd as [Hn Hnd].
  destruct k as [|k].
  - injection Hk as ->. rewrite world_upd_other by done. rewrite lookup_insert. cbn. by rewrite app_nil_r.
  - cbn in Hk. rewrite (IH _ _ k e Hnd Hk). cbn [take fmap list_fmap]. by rewrite <- app_assoc.
Qed.

Lemma called_ok rq f w es : NoDup es.*1 → called U rq f es w (world_upd U rq f [] es w).
Proof.
  intros Hnd. split.
  - intros k h m Hk. eexists. split; [apply (world_upd_at rq f es [] w k (h, m) Hnd Hk)|]. cbn [app]. intros c.
    rewrite upd_lookup. cbn [snd]. rewrite args_eq.
    replace (row_vals U rq <$> take k es) with (args_of U rq <$> take k es) by (apply list_fmap_ext; intros; by rewrite args_eq).
    destruct (m !! c) as [v|]; [|done]. cbn. destruct (f _ _ c); cbn; [done|]. by case_decide.
  - intros h Hh. by apply world_upd_other.
Qed.

(** One operation on one registry *)
Definition step_ok (n : nat) (op : rop) (r : registry) (s : sreg) (hp : store) : Prop :=
  (∃ r' o s' iss' hp', run_rop U op r = (r', o) ∧ rnext U s op o s' ∧ ri n r' s' iss' hp' ∧ hkeep hp s' hp') ∨
  ((run_rop U op r).2 = UB ∧ rhazard r s op).

Lemma mapM_ub {S A B} (f : A → B) (m : M S A) s : (m s).2 = UB → (mapM f m s).2 = UB.
Proof. intros E. unfold mapM. destruct (m s) as [s' o]. cbn in *. by subst. Qed.

Definition miss (r : registry) (h : handle) : exn := if rg_alive r h then OutOfRange else EntityNotFound.

Lemma missing_ok n r s iss hp h : ri n r s iss hp → missing s h (Throw (miss r h)).
Proof.
  intros [Hs H _]. eexists. split; [done|]. unfold miss. split; [|split].
  - intros Hd. by rewrite (alive_dead U H h Hd).
  - intros (? & ? & ?). rewrite (alive_live U H h); auto.
  - destruct (rg_alive r h); auto.
Qed.

Lemma lists_refused cs m c v : lists cs m → m !! c = None → get_max_size (u_type U <$> cs ++ [c]) = None →
  refused U (<[c := v]> m).
Proof.
  intros [Hnd Hcs] Hc Hg. exists (cs ++ [c]). split; [|split; [|done]].
  - apply NoDup_app. split; [done|]. split; [|apply NoDup_singleton]. intros x Hx ->%elem_of_list_singleton.
    apply Hcs in Hx as [? Hx]. congruence.
  - intros x. rewrite elem_of_app, Hcs, elem_of_list_singleton, lookup_insert_is_Some.
    destruct (decide (c = x)); naive_solver.
Qed.

Lemma lists_refused_del cs m c : lists cs m → get_max_size (u_type U <$> filter (λ x, x ≠ c) cs) = None →
  refused U (delete c m).
Proof.
  intros [Hnd Hcs] Hg. exists (filter (λ x, x ≠ c) cs). split; [by apply NoDup_filter|]. split; [|done].
  intros x. rewrite elem_of_list_filter, Hcs, lookup_delete_is_Some. naive_solver.
Qed.

Lemma copyable_dec m : copyable U m ↔ map_Forall (λ c _, u_copyable U c = true) m.
Proof. unfold copyable, map_Forall. split; [intros H c v Hv; apply H; eauto|intros H c [v Hv]; by eapply H]. Qed.

Lemma allocate_ri n r s iss hp : ri n r s iss hp → below_wrap (S n) → sr_pending s = [] →
  ∃ r1 ph, rg_allocate r = (r1, Ok ph) ∧ ri (S n) r1 s (ph :: iss) hp ∧ ri (S n) r1 (issue s ph) (ph :: iss) hp ∧
    ph ∉ sr_issued s ∧ ph ∉ sr_dead s ∧ sr_world s !! ph = None ∧ rg_heap r1 = rg_heap r.
Proof.
  intros [Hs H Hnn] Hbw Hp. rewrite Hp in H.
  destruct (allocate_spec U _ _ _ _ _ _ _ H Hbw) as (r1 & ph & E1 & H1 & Hh & Hw1 & Ha & Eh & Et & El).
  assert (sr_failed s = false → nonull r1) as Hnn1 by (intros Hf; unfold nonull; rewrite Et; by apply Hnn).
  exists r1, ph. split; [done|]. split; [|split; [|split; [|split; [|done]]]].
  - split; [set_solver|by rewrite Hp|done].
  - split; cbn; [set_solver|by rewrite Hp|done].
  - set_solver.
  - intros Hd. pose proof (alive_dead U H1 ph Hd). congruence.
Qed.

Lemma copy_ri n0 r0 s0 iss0 hp0 n r s iss hp h ph : ri n0 r0 s0 iss0 hp0 → ri n r s iss hp → below_wrap (S n) →
  ph ∈ iss → ph ∉ sr_dead s → ph ∉ sr_pending s → sr_world s !! ph = None →
  ∃ r' o s' hp', rg_copy_into U r0 h ph r = (r', o) ∧ ri n r' s' iss hp' ∧ hkeep hp s' hp' ∧
    match sr_world s0 !! h with
    | None => o = Throw (miss r0 h) ∧ s' = s
    | Some m => copyable U m ∧ o = Ok ph ∧ s' = with_world s (<[ph := m]> (sr_world s)) ∨
        ¬ copyable U m ∧ o = Throw InvalidArgument ∧ s' = leak s
    end.
Proof.
  intros Hri0 Hri Hbw Hp1 Hp2 Hp3 Hp4. pose proof (ri_inv _ _ _ _ _ Hri0) as H0.
  pose proof (ri_inv _ _ _ _ _ Hri) as H. pose proof (ri_nn _ _ _ _ _ Hri) as Hnn. pose proof (ri_iss _ _ _ _ _ Hri) as His.
  destruct (sr_world s0 !! h) as [m|] eqn:Hw.
  - pose proof (copy_into_spec U HU _ _ _ _ _ _ _ _ _ _ _ _ _ _ _ _ h m ph H0 H (locs_room U H Hbw) Hw Hp4 Hp1 Hp2 Hp3) as Hc.
    case_decide as Hcp.
    + destruct Hc as (r' & hp' & E & H' & Hk).
      exists r', (Ok ph), (with_world s (<[ph := m]> (sr_world s))), hp'. split; [done|].
      split; [split; [done|done|]; intros Hf; by apply Hk, Hnn|]. split; [intros _; apply Hk|]. left. split; [by apply copyable_dec|done].
    + destruct Hc as (r' & hp' & E & H' & Hk). exists r', (Throw InvalidArgument), (leak s), hp'.
      split; [done|]. split; [split; [done|done|]; intros Hf; by apply Hk, Hnn|]. split; [by intros ?|]. right. split; [by rewrite copyable_dec|done].
  - destruct (out_specs U _ _ _ _ _ _ _ _ h H0 Hw) as (_ & _ & _ & _ & _ & _ & _ & E & _).
    exists r, (Throw (miss r0 h)), s, hp. split; [apply E|]. split; [done|]. split; [by intros ???|]. done.
Qed.

(** An operation that changes nothing. *)
Lemma step_same n n' op r s iss hp o : ri n r s iss hp → n ≤ n' → run_rop U op r = (r, o) → rnext U s op o s → step_ok n' op r s hp.
Proof.
  intros Hri Hn E Hx. left. exists r, o, s, iss, hp. split; [done|]. split; [done|]. split; [by eapply ri_mono|]. by intros ???.
Qed.

Lemma rop_step n r s iss hp op : ri n r s iss hp → below_wrap (S (S n)) → permitted U s op → step_ok (S (S n)) op r s hp.
Proof.
  intros Hri Hbw Hper. pose proof (ri_inv _ _ _ _ _ Hri) as H. pose proof (ri_nn _ _ _ _ _ Hri) as Hnn.
  pose proof (ri_iss _ _ _ _ _ Hri) as His.
  assert (below_wrap (S n)) as Hbw1 by (unfold below_wrap in *; lia). assert (n ≤ S (S n)) as Hle by lia.
  pose proof (λ h, missing_ok n r s iss hp h Hri) as Hmiss.
  destruct op; cbn [permitted] in Hper.
  - (* create *)
    left. destruct Hper as (Hp & Hnd & Hent). rewrite Hp in H.
    destruct (create_spec U HU _ _ _ _ _ _ _ _ H Hbw1 Hnd Hent) as (r' & o & h & hp' & E & Hh & Ho).
    destruct Ho as [(-> & H' & Hw & Hk)|(-> & Hg & -> & H')].
    + exists r', (Ok (RHandle h)), (with_world (issue s h) (<[h := list_to_map args]> (sr_world s))), (h :: iss), hp'.
      split; [cbn; unfold mapM; by rewrite E|]. split; [left; exists h; split; [set_solver|done]|]. split; [|intros _; apply Hk].
      apply (ri_mono (S n)); [lia|]. split; cbn; [set_solver|by rewrite Hp|]. intros Hf. by apply Hk, Hnn.
    + exists r', (Throw InsufficientChunkSize), (fail s), (h :: iss), hp.
      split; [cbn; unfold mapM; by rewrite E|]. split; [by right|]. split; [|by intros ???].
      apply (ri_mono (S n)); [lia|]. split; cbn; [set_solver|by rewrite Hp|done].
  - (* destroy *)
    rename Hper into Hp. destruct (sr_world s !! h) as [m|] eqn:Hw.
    + rewrite Hp in H. destruct (destroy_spec U HU _ _ _ _ _ _ _ _ _ H Hbw1 Hw) as [(r' & hp' & E & H' & Hk)|[Hh E]].
      * left. exists r', (Ok RUnit), (kill s h), iss, hp'. split; [cbn; unfold mapM; by rewrite E|]. split; [cbn; by rewrite Hw|].
        split; [|intros _; apply Hk]. apply (ri_mono (S n)); [lia|]. split; cbn; [done|by rewrite Hp|]. intros Hf. by apply Hk, Hnn.
      * right. split; [by apply mapM_ub|]. split; [by eapply trap_trapped|eauto].
    + destruct (out_specs U _ _ _ _ _ _ _ _ h H Hw) as (E & _).
      apply (step_same n _ _ _ _ iss _ (Throw (miss r h))); [done|done|cbn; unfold mapM; by rewrite E|cbn; rewrite Hw; auto].
  - (* set *)
    destruct Hper as (Hc & Hx). destruct (sr_world s !! h) as [m|] eqn:Hw.
    + destruct x as [v|].
      * destruct (set_spec U HU _ _ _ _ _ _ _ _ _ _ c v H Hw Hc) as [(r' & hp' & E & H' & Hk)|[(r' & cs & E & H' & Hmc & Hl & Hg)|(Hh & Hmc & E)]].
        -- left. exists r', (Ok RUnit), (with_world s (<[h := <[c := v]> m]> (sr_world s))), iss, hp'.
           split; [cbn; unfold mapM; by rewrite E|]. split; [cbn; rewrite Hw; by left|]. split; [|intros _; apply Hk].
           apply (ri_mono n); [lia|]. split; [done|done|]. intros Hf. by apply Hk, Hnn.
        -- left. exists r', (Throw InsufficientChunkSize), (fail s), iss, hp. split; [cbn; unfold mapM; by rewrite E|].
           split; [cbn; rewrite Hw; right; split; [done|]; split; [done|]; split; [by eapply lists_refused|done]|]. split; [|by intros ???].
           apply (ri_mono n); [lia|]. by split.
        -- right. split; [by apply mapM_ub|]. split; [by eapply trap_trapped|eauto].
      * destruct (Hx eq_refl m eq_refl) as [v0 Hv0].
        destruct (set_impl_present U _ _ _ _ _ _ _ _ _ _ _ _ H Hw Hv0) as (a & p & cs & rowss & ar & E & _).
        apply (step_same n _ _ _ _ iss _ (Throw CtorThrew)); [done|done| |cbn; by rewrite Hw].
        cbn. unfold mapM, rg_set. by rewrite (bind_ok _ _ _ _ _ E).
    + destruct (out_specs U _ _ _ _ _ _ _ _ h H Hw) as (_ & E & _). specialize (E c x).
      apply (step_same n _ _ _ _ iss _ (Throw (miss r h))); [done|done|cbn; unfold mapM; by rewrite E|cbn; rewrite Hw; auto].
  - (* get_or_insert *)
    destruct Hper as (Hc & Hx). destruct (sr_world s !! h) as [m|] eqn:Hw.
    + destruct (m !! c) as [v0|] eqn:Hv0.
      * destruct (set_impl_present U _ _ _ _ _ _ _ _ _ _ _ _ H Hw Hv0) as (a & p & cs & rowss & ar & E & Ha & Har & Hrep & Hp & Hcs & Hf).
        assert (rg_get_or_insert U h c x r = (r, Ok (CVal v0))) as E'.
        { unfold rg_get_or_insert. rewrite (bind_ok _ _ _ _ _ E). cbn [fst snd].
          rewrite (bind_ok _ (λ _, at_ptr _ _) _ _ _ (eq_refl : ret tt r = (r, Ok tt))).
          pose proof (ar_read_spec U _ _ _ _ _ (h, m) c v0 Hrep Hp Hcs Hv0) as Er. cbn [fst snd] in Er |- *.
          unfold at_ptr. cbn [fst snd]. by apply (on_arch_same _ _ _ _ _ Har). }
        apply (step_same n _ _ _ _ iss _ (Ok (RCell (CVal v0)))); [done|done|cbn; unfold mapM; by rewrite E'|cbn; rewrite Hw, Hv0; auto].
      * destruct x as [v|]; [|destruct (Hx eq_refl m eq_refl); congruence].
        destruct (get_or_insert_spec U HU _ _ _ _ _ _ _ _ _ _ c v H Hw Hc) as [(r' & hp' & E & H' & Hk)|[(r' & cs & E & H' & Hmc & Hl & Hg)|(Hh & Hmc & E)]].
        -- rewrite Hv0 in E, H'. left. exists r', (Ok (RCell (CVal v))), (with_world s (<[h := <[c := v]> m]> (sr_world s))), iss, hp'.
           split; [cbn; unfold mapM; by rewrite E|]. split; [cbn; rewrite Hw, Hv0; by left|]. split; [|intros _; apply Hk].
           apply (ri_mono n); [lia|]. split; [done|done|]. intros Hf. by apply Hk, Hnn.
        -- left. exists r', (Throw InsufficientChunkSize), (fail s), iss, hp. split; [cbn; unfold mapM; by rewrite E|].
           split; [cbn; rewrite Hw, Hv0; right; split; [done|]; split; [by eapply lists_refused|done]|]. split; [|by intros ???].
           apply (ri_mono n); [lia|]. by split.
        -- right. split; [by apply mapM_ub|]. split; [by eapply trap_trapped|eauto].
    + destruct (out_specs U _ _ _ _ _ _ _ _ h H Hw) as (_ & _ & E & _). specialize (E c x).
      apply (step_same n _ _ _ _ iss _ (Throw (miss r h))); [done|done|cbn; unfold mapM; by rewrite E|cbn; rewrite Hw; auto].
  - (* remove *)
    rename Hper into Hc. destruct (sr_world s !! h) as [m|] eqn:Hw.
    + destruct (remove_spec U HU _ _ _ _ _ _ _ _ _ _ c H Hw) as [(r' & hp' & E & H' & Hk)|[(r' & cs & E & H' & Hmc & Hl & _ & Hg)|(Hh & Hmc & E)]].
      * left. exists r', (Ok RUnit), (with_world s (<[h := delete c m]> (sr_world s))), iss, hp'.
        split; [cbn; unfold mapM; by rewrite E|]. split; [cbn; rewrite Hw; by left|]. split; [|intros _; apply Hk].
        apply (ri_mono n); [lia|]. split; [done|done|]. intros Hf. by apply Hk, Hnn.
      * left. exists r', (Throw InsufficientChunkSize), (fail s), iss, hp. split; [cbn; unfold mapM; by rewrite E|].
        split; [cbn; rewrite Hw; right; split; [done|]; split; [done|]; split; [by eapply lists_refused_del|done]|]. split; [|by intros ???].
        apply (ri_mono n); [lia|]. by split.
      * right. split; [by apply mapM_ub|]. split; [by eapply trap_trapped|eauto].
    + destruct (out_specs U _ _ _ _ _ _ _ _ h H Hw) as (_ & _ & _ & E & _). specialize (E c).
      apply (step_same n _ _ _ _ iss _ (Throw (miss r h))); [done|done|cbn; unfold mapM; by rewrite E|cbn; rewrite Hw; auto].
  - (* get *)
    rename Hper into Hc. destruct (sr_world s !! h) as [m|] eqn:Hw.
    + pose proof (get_spec U HU _ _ _ _ _ _ _ _ _ _ c H Hw Hc) as E.
      eapply (step_same n _ _ _ _ iss); [done|done|cbn; unfold mapM; by rewrite E|]. cbn. rewrite Hw. by destruct (m !! c).
    + destruct (out_specs U _ _ _ _ _ _ _ _ h H Hw) as (_ & _ & _ & _ & E & _). specialize (E c).
      apply (step_same n _ _ _ _ iss _ (Throw (miss r h))); [done|done|cbn; unfold mapM; by rewrite E|cbn; rewrite Hw; auto].
  - (* has *)
    destruct (sr_world s !! h) as [m|] eqn:Hw.
    + pose proof (has_spec U _ _ _ _ _ _ _ _ _ _ cs H Hw) as E.
      eapply (step_same n _ _ _ _ iss); [done|done|cbn; unfold mapM; by rewrite E|]. cbn. rewrite Hw.
      eexists; split; [done|]; split; [|done]; rewrite bool_decide_eq_true, Forall_forall; done.
    + destruct (out_specs U _ _ _ _ _ _ _ _ h H Hw) as (_ & _ & _ & _ & _ & E & _). specialize (E cs).
      apply (step_same n _ _ _ _ iss _ (Throw (miss r h))); [done|done|cbn; unfold mapM; by rewrite E|cbn; rewrite Hw; auto].
  - (* visit *)
    destruct (sr_world s !! h) as [m|] eqn:Hw.
    + destruct (visit_spec U _ _ _ _ _ _ _ _ _ _ H Hw) as (l & E & Hl).
      apply (step_same n _ _ _ _ iss _ (Ok (RVisited l))); [done|done|cbn; unfold mapM; by rewrite E|]. cbn. rewrite Hw.
      exists l. split; [done|]. split; [|split; [|done]].
      * rewrite Hl. apply NoDup_fmap_2; [|apply NoDup_map_to_list]. by intros [c v] [c' v'] [= -> ->].
      * intros c x. rewrite Hl, elem_of_list_fmap. split.
        -- intros ([c' v] & [= -> ->] & Hv%elem_of_map_to_list). eauto.
        -- intros (v & Hv & ->). exists (c, v). split; [done|]. by apply elem_of_map_to_list.
    + destruct (out_specs U _ _ _ _ _ _ _ _ h H Hw) as (_ & _ & _ & _ & _ & _ & E & _).
      apply (step_same n _ _ _ _ iss _ (Throw (miss r h))); [done|done|cbn; unfold mapM; by rewrite E|cbn; rewrite Hw; auto].
  - (* alive *)
    apply (step_same n _ _ _ _ iss _ (Ok (RBool (rg_alive r h)))); [done|done|done|]. cbn.
    eexists. split; [done|]. split; [intros Hd; by apply (alive_dead U H)|]. split; [|done]. intros (? & ? & ?). apply (alive_live U H); auto.
  - (* size *)
    apply (step_same n _ _ _ _ iss _ (Ok (RNum (rg_size r)))); [done|done|done|]. cbn.
    split; [|done]. unfold rg_size. by rewrite (locs_count U HU H).
  - (* clone *)
    left. rename Hper into Hp. destruct (allocate_ri _ _ _ _ _ Hri Hbw1 Hp) as (r1 & ph & E1 & Hri1 & Hri2 & Hph & Hd & Hwp & _).
    destruct (copy_ri (S n) r1 s (ph :: iss) hp (S n) r1 s (ph :: iss) hp h ph Hri1 Hri1 Hbw ltac:(by left) Hd ltac:(rewrite Hp; apply not_elem_of_nil) Hwp)
      as (r' & o & s' & hp' & E & Hri' & Hk & Hm).
    assert (run_rop U (OClone h) r = (r', omap_out RHandle o)) as Er.
    { cbn. unfold mapM, rg_clone. rewrite (bind_ok _ _ _ _ _ E1). by rewrite (bind_ok _ _ r1 r1 r1), E by done. }
    destruct (sr_world s !! h) as [m|] eqn:Hw; [destruct Hm as [(Hc & -> & ->)|(Hc & -> & ->)]|destruct Hm as [-> ->]].
    + exists r', (Ok (RHandle ph)), (with_world (issue s ph) (<[ph := m]> (sr_world s))), (ph :: iss), hp'. split; [done|].
      split; [cbn; rewrite Hw; left; eauto|]. split; [|exact Hk]. apply (ri_mono (S n)); [lia|]. destruct Hri' as [Ha Hb Hc']. split; cbn; [set_solver|done|done].
    + eexists r', _, (leak s), (ph :: iss), hp'. split; [done|]. split; [cbn; rewrite Hw; right; auto|]. split; [|exact Hk].
      apply (ri_mono (S n)); [lia|done].
    + eexists r', _, s, (ph :: iss), hp'. split; [done|]. split; [cbn; rewrite Hw; split; [|done]; by apply (missing_ok (S n) r1 s (ph :: iss) hp)|].
      split; [|exact Hk]. apply (ri_mono (S n)); [lia|done].
  - (* clone into a placeholder *)
    left. destruct Hper as [(Hp1 & Hp2 & Hp3) Hp4].
    destruct (copy_ri n r s iss hp n r s iss hp h ph Hri Hri Hbw1 ltac:(auto) Hp2 Hp3 Hp4)
      as (r' & o & s' & hp' & E & Hri' & Hk & Hm).
    exists r', (omap_out RHandle o), s', iss, hp'. split; [cbn; unfold mapM, rg_clone_into; by rewrite (bind_ok _ _ r r r), E by done|].
    split; [|split; [|exact Hk]; apply (ri_mono n); [lia|done]]. cbn.
    destruct (sr_world s !! h) as [m|] eqn:Hw; [destruct Hm as [(Hc & -> & ->)|(Hc & -> & ->)]|destruct Hm as [-> ->]]; [by left|by right|].
    split; [|done]. by apply Hmiss.
  - (* reserve *)
    left. destruct (reserve_spec U HU _ _ _ _ _ _ _ _ H Hbw) as (r' & h & E & H' & Hh & Hk).
    eexists r', (Ok (RHandle h)), _, (h :: iss), hp. split; [cbn; unfold mapM; by rewrite E|]. split; [exists h; split; [set_solver|done]|]. split; [|by intros ???].
    split; [cbn; set_solver|done|]. intros Hf. by apply Hk, Hnn.
  - (* sync *)
    left. destruct (sync_spec U _ _ _ _ _ _ _ _ H) as (r' & E & H' & Hk).
    eexists r', (Ok RUnit), _, iss, hp. split; [unfold run_rop, mapM; by rewrite E|]. split; [split; reflexivity|]. split; [|by intros ???].
    apply (ri_mono (S n)); [lia|]. split; [done|done|]. intros Hf. by apply Hk, Hnn.
  - (* each *)
    destruct Hper as [Hne Hent].
    destruct (each_spec U HU _ _ _ _ _ _ _ _ rq f H Hent Hne) as [(r' & hp' & es & E & Hes & H' & Hk)|[Hn E]].
    + left. pose proof (enum_perm _ _ _ Hes) as He.
      exists r', (Ok (RCalls (row_vals U rq <$> es))), (with_world s (world_upd U rq f [] es (sr_world s))), iss, hp'.
      split; [cbn; unfold mapM; by rewrite E|]. split; [|split; [|intros _; apply Hk]].
      * exists es, (world_upd U rq f [] es (sr_world s)). split; [done|]. split.
        -- do 2 f_equal. apply list_fmap_ext. intros. by rewrite args_eq.
        -- split; [|done]. apply called_ok, He.
      * apply (ri_mono n); [lia|]. split; [done|done|]. intros Hf. by apply Hk, Hnn.
    + right. split; [by apply mapM_ub|]. cbn. split; [by eapply null_has|]. destruct (sr_failed s); [done|]. by destruct Hn; apply Hnn.
  - (* single *)
    destruct Hper as [Hne Hent].
    destruct (single_spec U HU _ _ _ _ _ _ _ _ rq H Hne) as [(x & E & Hx1 & Hx2)|[Hn E]].
    + eapply (step_same n _ _ _ _ iss); [done|done|cbn; unfold mapM; by rewrite E|]. split; [done|]. destruct x as [[h m]|].
      * right. destruct (Hx1 _ eq_refl) as [? ?]. exists h, m. split; [done|]. split; [by apply has_all_matches|].
        cbn. by rewrite args_eq.
      * left. split; [done|]. intros h m Hw Hm%has_all_matches. by eapply Hx2.
    + right. split; [by apply mapM_ub|]. cbn. split; [by eapply null_has|]. destruct (sr_failed s); [done|]. by destruct Hn; apply Hnn.
Qed.

Definition stays (s' : sreg) (r r' : registry) : Prop := sr_leaky s' = false → hole_free r → small r → hole_free r'.

Lemma hkeep_stays n n' r s iss hp r' s' iss' hp' : ri n r s iss hp → ri n' r' s' iss' hp' → hkeep hp s' hp' → stays s' r r'.
Proof.
  intros Hri Hri' Hk Hl Hh Hs. apply (hole_free_iff _ _ _ _ _ Hri'), Hk; [done| |].
  - by apply (hole_free_iff _ _ _ _ _ Hri).
  - by apply (small_iff _ _ _ _ _ Hri).
Qed.

(** A program with several registries. *)
Definition sys (n : nat) (rs : list registry) (ss : list sreg) : Prop := Forall2 (λ r s, ∃ iss hp, ri n r s iss hp) rs ss.

Lemma sys_mono n n' rs ss : n ≤ n' → sys n rs ss → sys n' rs ss.
Proof. intros Hn H. eapply Forall2_impl; [exact H|]. intros r s (iss & hp & Hr). exists iss, hp. by eapply ri_mono. Qed.

Lemma sys_get n rs ss (i : nat) s : sys n rs ss → ss !! i = Some s → ∃ r iss hp, rs !! i = Some r ∧ ri n r s iss hp.
Proof. intros H Hi. destruct (Forall2_lookup_r _ _ _ _ _ H Hi) as (r & Hr & iss & hp & Hri). eauto. Qed.

Lemma sys_put n rs ss (i : nat) r s iss hp : sys n rs ss → ri n r s iss hp → sys n (<[i := r]> rs) (<[i := s]> ss).
Proof. intros H Hri. apply Forall2_insert; [done|]. by exists iss, hp. Qed.

Definition all_stay (rs rs' : list registry) (ss' : list sreg) : Prop :=
  ∀ (i : nat) r r' s', rs !! i = Some r → rs' !! i = Some r' → ss' !! i = Some s' → stays s' r r'.

Lemma all_stay_refl rs ss : all_stay rs rs ss.
Proof. intros i r r' s' H1 H2 _. rewrite H1 in H2. injection H2 as <-. by intros ???. Qed.

Lemma all_stay_put rs rs1 ss1 (i : nat) r r' s' : rs !! i = Some r → stays s' r r' → all_stay rs rs1 ss1 →
  all_stay rs (<[i := r']> rs1) (<[i := s']> ss1).
Proof.
  intros Hr Hs Ha j x x' y Hx Hx' Hy. destruct (decide (j = i)) as [->|Hn].
  - apply list_lookup_insert_Some in Hx' as [(_ & <- & _)|[? _]]; [|done].
    apply list_lookup_insert_Some in Hy as [(_ & <- & _)|[? _]]; [|done]. rewrite Hr in Hx. by injection Hx as <-.
  - rewrite list_lookup_insert_ne in Hx' by done. rewrite list_lookup_insert_ne in Hy by done. by eapply Ha.
Qed.

Definition sstep_ok (n : nat) (op : sop) (rs : list registry) (ss : list sreg) : Prop :=
  (∃ rs' o ss', run_sop U op rs = (rs', o) ∧ snext U ss op o ss' ∧ sys n rs' ss' ∧ all_stay rs rs' ss') ∨
  ((run_sop U op rs).2 = UB ∧ hazard rs ss op).

Lemma stays_heap s' r r1 r' : rg_heap r1 = rg_heap r → stays s' r1 r' → stays s' r r'.
Proof. intros E H Hl Hh Hs. apply H; [done| |]; [unfold hole_free|unfold small]; by rewrite E. Qed.

Lemma move_ri n0 r0 s0 iss0 hp0 n r s iss hp h ph : ri n0 r0 s0 iss0 hp0 → ri n r s iss hp → below_wrap (S n) → below_wrap (S n0) →
  sr_pending s0 = [] → ph ∈ iss → ph ∉ sr_dead s → ph ∉ sr_pending s → sr_world s !! ph = None →
  match sr_world s0 !! h with
  | None => rg_move_into U h ph (r0, r) = ((r0, r), Throw (miss r0 h))
  | Some m =>
      (∃ r0' r' hp0' hp', rg_move_into U h ph (r0, r) = ((r0', r'), Ok ph) ∧ ri (S n0) r0' (kill s0 h) iss0 hp0' ∧
         ri n r' (with_world s (<[ph := m]> (sr_world s))) iss hp' ∧ stays s0 r0 r0' ∧ stays s r r') ∨
      (trapped r0 h ∧ (rg_move_into U h ph (r0, r)).2 = UB)
  end.
Proof.
  intros Hri0 Hri Hbw Hbw0 Hp Hp1 Hp2 Hp3 Hp4. pose proof (ri_inv _ _ _ _ _ Hri0) as H0.
  pose proof (ri_inv _ _ _ _ _ Hri) as H. pose proof (ri_nn _ _ _ _ _ Hri) as Hnn. pose proof (ri_nn _ _ _ _ _ Hri0) as Hnn0.
  destruct (sr_world s0 !! h) as [m|] eqn:Hw.
  - rewrite Hp in H0.
    destruct (move_into_spec U HU _ _ _ _ _ _ _ _ _ _ _ _ _ _ _ h m ph H0 H (locs_room U H Hbw) Hbw0 Hw Hp4 Hp1 Hp2 Hp3)
      as [(r0' & r' & hp0' & hp' & E & H0' & Hk0 & H' & Hk)|[Hh E]].
    + left. assert (ri n r' (with_world s (<[ph := m]> (sr_world s))) iss hp') as Hri'.
      { split; [apply Hri|done|]. intros Hf. by apply Hk, Hnn. }
      assert (ri (S n0) r0' (kill s0 h) iss0 hp0') as Hri0'.
      { split; cbn; [apply Hri0|by rewrite Hp|]. intros Hf. by apply Hk0, Hnn0. }
      exists r0', r', hp0', hp'. split; [done|]. split; [done|]. split; [done|]. split.
      * intros Hl. by apply (hkeep_stays _ _ _ _ _ _ _ _ _ _ Hri0 Hri0'); [intros _; apply Hk0|].
      * intros Hl. by apply (hkeep_stays _ _ _ _ _ _ _ _ _ _ Hri Hri'); [intros _; apply Hk|].
    + right. split; [|done]. by eapply trap_trapped.
  - destruct (out_specs U _ _ _ _ _ _ _ _ h H0 Hw) as (_ & _ & _ & _ & _ & _ & _ & _ & E). apply E.
Qed.

Lemma sop_step n rs ss op : sys n rs ss → below_wrap (S (S n)) → spermitted U ss op → sstep_ok (S (S n)) op rs ss.
Proof.
  intros Hsys Hbw Hper. assert (below_wrap (S n)) as Hbw1 by (unfold below_wrap in *; lia).
  assert (sys (S (S n)) rs ss) as Hsys2 by (eapply sys_mono; [|done]; lia).
  assert (∀ A (x : A), x ∉ []) as Hnil by (intros; apply not_elem_of_nil).
  unfold sstep_ok. destruct op as [i op|i h j|i h j ph|i h j|i h j ph]; cbn [spermitted run_sop snext] in *.
  - destruct Hper as (s & Hs & Hper). destruct (sys_get _ _ _ _ _ Hsys Hs) as (r & iss & hp & Hr & Hri).
    unfold on_reg. rewrite Hr. destruct (rop_step n r s iss hp op Hri Hbw Hper) as [(r' & o & s' & iss' & hp' & E & Hn & Hri' & Hk)|[E Hf]].
    + left. rewrite E. exists (<[i := r']> rs), o, (<[i := s']> ss). split; [done|]. split; [eauto|]. split; [by eapply sys_put|].
      apply (all_stay_put _ _ _ _ r); [done| |apply all_stay_refl]. by eapply hkeep_stays.
    + right. destruct (run_rop U op r) as [r' o]. split; [done|]. exists r, s. auto.
  - destruct Hper as (Hij & a & b & Ha & Hb & Hp). left.
    destruct (sys_get _ _ _ _ _ Hsys Ha) as (ra & issa & hpa & Hra & Hria). destruct (sys_get _ _ _ _ _ Hsys Hb) as (rb & issb & hpb & Hrb & Hrib).
    unfold on_regs. rewrite Hra, Hrb. cbn [fst snd].
    destruct (allocate_ri _ _ _ _ _ Hrib Hbw1 Hp) as (r1 & ph & E1 & Hri1 & Hri2 & Hph & Hd & Hwp & Eheap).
    destruct (copy_ri n ra a issa hpa (S n) r1 b (ph :: issb) hpb h ph Hria Hri1 Hbw ltac:(by left) Hd ltac:(by rewrite Hp) Hwp)
      as (r' & o & s' & hp' & E & Hri' & Hk & Hm).
    unfold mapM, rg_copy. rewrite (bind_ok _ _ _ _ _ E1), E. rewrite (list_insert_id rs i ra) by done.
    pose proof (stays_heap _ _ _ _ Eheap (hkeep_stays _ _ _ _ _ _ _ _ _ _ Hri1 Hri' Hk)) as Hst.
    pose proof (missing_ok _ _ _ _ _ h Hria) as Hms. apply (ri_mono _ (S (S n))) in Hri'; [|lia].
    destruct (sr_world a !! h) as [m|] eqn:Hw; [destruct Hm as [(Hc & -> & ->)|(Hc & -> & ->)]|destruct Hm as [-> ->]].
    + eexists _, _, (<[j := with_world (issue b ph) (<[ph := m]> (sr_world b))]> ss). split; [done|].
      split; [exists a, b; rewrite Hw; eauto 10|]. split.
      * eapply sys_put; [done|]. destruct Hri' as [? ? ?]. split; cbn; [|done|done]. set_solver.
      * apply (all_stay_put _ _ _ _ rb); [done|exact Hst|apply all_stay_refl].
    + eexists _, _, (<[j := leak b]> ss). split; [done|]. split; [exists a, b; rewrite Hw; eauto 10|].
      split; [by eapply sys_put|]. by apply (all_stay_put _ _ _ _ rb), all_stay_refl.
    + eexists _, _, ss. split; [done|]. split; [exists a, b; rewrite Hw; done|]. rewrite <- (list_insert_id ss j b) by done.
      split; [by eapply sys_put|]. by apply (all_stay_put _ _ _ _ rb), all_stay_refl.
  - destruct Hper as (Hij & a & b & Ha & Hb & [(Hv1 & Hv2 & Hv3) Hv4]). left.
    destruct (sys_get _ _ _ _ _ Hsys Ha) as (ra & issa & hpa & Hra & Hria). destruct (sys_get _ _ _ _ _ Hsys Hb) as (rb & issb & hpb & Hrb & Hrib).
    unfold on_regs. rewrite Hra, Hrb. cbn [fst snd].
    destruct (copy_ri n ra a issa hpa n rb b issb hpb h ph Hria Hrib Hbw1 (ri_iss _ _ _ _ _ Hrib _ Hv1) Hv2 Hv3 Hv4)
      as (r' & o & s' & hp' & E & Hri' & Hk & Hm).
    unfold mapM. rewrite E. rewrite (list_insert_id rs i ra) by done.
    pose proof (hkeep_stays _ _ _ _ _ _ _ _ _ _ Hrib Hri' Hk) as Hst.
    pose proof (missing_ok _ _ _ _ _ h Hria) as Hms. apply (ri_mono _ (S (S n))) in Hri'; [|lia].
    exists (<[j := r']> rs), (omap_out RHandle o), (<[j := s']> ss). split; [done|]. split; [|split].
    + exists a, b. split; [done|]. split; [done|]. destruct (sr_world a !! h) as [m|].
      * destruct Hm as [(? & -> & ->)|(? & -> & ->)]; auto.
      * destruct Hm as [-> ->]. split; [done|]. by rewrite list_insert_id.
    + by eapply sys_put.
    + by apply (all_stay_put _ _ _ _ rb), all_stay_refl.
  - destruct Hper as (Hij & a & b & Ha & Hb & Hpa & Hpb).
    destruct (sys_get _ _ _ _ _ Hsys Ha) as (ra & issa & hpa & Hra & Hria). destruct (sys_get _ _ _ _ _ Hsys Hb) as (rb & issb & hpb & Hrb & Hrib).
    unfold on_regs. rewrite Hra, Hrb. cbn [fst snd].
    destruct (allocate_ri _ _ _ _ _ Hrib Hbw1 Hpb) as (r1 & ph & E1 & Hri1 & Hri2 & Hph & Hd & Hwp & Eheap).
    pose proof (move_ri n ra a issa hpa (S n) r1 b (ph :: issb) hpb h ph Hria Hri1 Hbw Hbw1 Hpa ltac:(by left) Hd ltac:(by rewrite Hpb) Hwp) as Hm.
    assert (on_snd rg_allocate (ra, rb) = ((ra, r1), Ok ph)) as Eal by (unfold on_snd; cbn [fst snd]; by rewrite E1).
    destruct (sr_world a !! h) as [m|] eqn:Hw.
    + destruct Hm as [(r0' & r' & hp0' & hp' & E & Hri0' & Hri' & Hk0 & Hk)|[Hh E]].
      * left. unfold mapM, rg_move. rewrite (bind_ok _ _ _ _ _ Eal), E.
        eexists _, _, _. split; [done|]. split; [exists a, b; rewrite Hw; eauto 10|]. apply (ri_mono _ (S (S n))) in Hri', Hri0'; [|lia..]. split.
        -- eapply sys_put; [by eapply sys_put|]. destruct Hri' as [? ? ?]. split; cbn; [|done|done]. set_solver.
        -- apply (all_stay_put _ _ _ _ rb); [done|by apply (stays_heap b _ r1)|by apply (all_stay_put _ _ _ _ ra), all_stay_refl].
      * right. split; [|exists ra, a; eauto 10].
        unfold mapM, rg_move. rewrite (bind_ok _ _ _ _ _ Eal). destruct (rg_move_into U h ph (ra, r1)) as [[x y] o]. cbn in E |- *. by subst.
    + left. unfold mapM, rg_move. rewrite (bind_ok _ _ _ _ _ Eal), Hm. rewrite (list_insert_id rs i ra) by done.
      eexists _, _, ss. split; [done|]. split; [exists a, b; rewrite Hw; split; [done|]; split; [done|]; split; [by eapply missing_ok|done]|].
      rewrite <- (list_insert_id ss j b) by done. apply (ri_mono _ (S (S n))) in Hri1; [|lia]. split; [by eapply sys_put|].
      apply (all_stay_put _ _ _ _ rb); [done|apply (stays_heap b _ r1); [done|by intros ???]|apply all_stay_refl].
  - destruct Hper as (Hij & a & b & Ha & Hb & Hpa & [(Hv1 & Hv2 & Hv3) Hv4]).
    destruct (sys_get _ _ _ _ _ Hsys Ha) as (ra & issa & hpa & Hra & Hria). destruct (sys_get _ _ _ _ _ Hsys Hb) as (rb & issb & hpb & Hrb & Hrib).
    unfold on_regs. rewrite Hra, Hrb. cbn [fst snd].
    pose proof (move_ri n ra a issa hpa n rb b issb hpb h ph Hria Hrib Hbw1 Hbw1 Hpa (ri_iss _ _ _ _ _ Hrib _ Hv1) Hv2 Hv3 Hv4) as Hm.
    destruct (sr_world a !! h) as [m|] eqn:Hw.
    + destruct Hm as [(r0' & r' & hp0' & hp' & E & Hri0' & Hri' & Hk0 & Hk)|[Hh E]].
      * left. unfold mapM. rewrite E.
        eexists _, _, _. split; [done|]. split; [exists a, b; rewrite Hw; done|]. apply (ri_mono _ (S (S n))) in Hri', Hri0'; [|lia..]. split.
        -- eapply sys_put; [by eapply sys_put|done].
        -- apply (all_stay_put _ _ _ _ rb); [done|done|by apply (all_stay_put _ _ _ _ ra), all_stay_refl].
      * right. split; [|exists ra, a; eauto 10].
        unfold mapM. destruct (rg_move_into U h ph (ra, rb)) as [[x y] o]. cbn in E |- *. by subst.
    + left. unfold mapM. rewrite Hm. rewrite (list_insert_id rs i ra), (list_insert_id rs j rb) by done.
      eexists _, _, _. split; [done|]. split; [exists a, b; rewrite Hw; split; [done|]; split; [done|]; split; [by eapply missing_ok|done]|].
      split; [done|]. apply all_stay_refl.
Qed.

Lemma sys_init n k : sys n (replicate k rg_init) (replicate k sreg_init).
Proof. apply Forall2_replicate. exists [], []. apply ri_init. Qed.

Lemma sys_agrees n rs ss : sys n rs ss → Forall2 (agrees U) rs ss.
Proof.
  intros H. eapply Forall2_impl; [exact H|]. intros r s (iss & hp & [_ Hr _]) h m c Hw Hc. by rewrite (get_spec U HU _ _ _ _ _ _ _ _ _ _ c Hr Hw Hc).
Qed.

(** The record is determined by the outputs and by get. *)
Lemma missing_det s h e o : missing s h o → o = Throw e → e = EntityNotFound ∨ e = OutOfRange.
Proof. intros (e' & -> & _ & _ & H) [= <-]. done. Qed.

Lemma world_ent n r s iss hp h m : ri n r s iss hp → sr_world s !! h = Some m → m !! u_ent U = None.
Proof.
  intros [_ H _] Hw. destruct (loc_in U H h m Hw) as (a & p & cs & rowss & rows & El & Ha & Hp & Hrows & Hf & Hl).
  pose proof (si_ent _ _ _ _ (rv_st _ _ _ _ _ _ _ _ _ H) _ _ Ha) as He. cbn [fst] in He.
  destruct (m !! u_ent U) eqn:E; [|done]. exfalso. apply He. apply (full_elem _ _ _ (u_ent U) Hf). eauto.
Qed.

Lemma rnext_det n r0 s iss hp op o s1 s2 r : ri n r0 s iss hp → rnext U s op o s1 → rnext U s op o s2 →
  agrees U r s1 → agrees U r s2 → s1 = s2.
Proof.
  intros Hri H1 H2 A1 A2. destruct op; cbn in H1, H2;
    try match goal with H : context [sr_world s !! ?h] |- _ => destruct (sr_world s !! h) as [m|] eqn:Hw end; try (destruct H1 as [? ->], H2 as [? ->]; done).
  - destruct H1 as [(h1 & _ & -> & ->)|(-> & _ & ->)], H2 as [(h2 & _ & E & ->)|(E & _ & ->)]; try done. injection E as ->. done.
  - destruct x.
    + destruct H1 as [(-> & ->)|(-> & _ & _ & ->)], H2 as [(E & ->)|(E & _ & _ & ->)]; done.
    + destruct H1 as [_ ->], H2 as [_ ->]. done.
  - destruct (m !! c) as [v|]; [destruct H1 as [_ ->], H2 as [_ ->]; done|]. destruct x; [|done].
    destruct H1 as [(-> & ->)|(-> & _ & ->)], H2 as [(E & ->)|(E & _ & ->)]; done.
  - destruct H1 as [(-> & ->)|(-> & _ & _ & ->)], H2 as [(E & ->)|(E & _ & _ & ->)]; done.
  - destruct H1 as (? & _ & _ & ->), H2 as (? & _ & _ & ->). done.
  - destruct H1 as (? & _ & _ & _ & ->), H2 as (? & _ & _ & _ & ->). done.
  - destruct H1 as (? & _ & _ & _ & ->), H2 as (? & _ & _ & _ & ->). done.
  - destruct H1 as [(_ & h1 & _ & -> & ->)|(_ & -> & ->)], H2 as [(_ & h2 & _ & E & ->)|(_ & E & ->)]; try done. injection E as ->. done.
  - destruct H1 as [(_ & -> & ->)|(_ & -> & ->)], H2 as [(_ & E & ->)|(_ & E & ->)]; done.
  - destruct H1 as (h1 & _ & -> & ->), H2 as (h2 & _ & E & ->). injection E as ->. done.
  - destruct H1 as (es1 & w1 & (Hn1 & He1) & _ & (Hc1 & Ho1) & ->), H2 as (es2 & w2 & (Hn2 & He2) & _ & (Hc2 & Ho2) & ->). f_equal.
    assert (∀ (es : list row) (w : world), (∀ h m, (h, m) ∈ es ↔ sr_world s !! h = Some m ∧ matches U rq (h, m)) →
      (∀ (k : nat) h m, es !! k = Some (h, m) → ∃ m', w !! h = Some m' ∧ assigned rq (f (args_of U rq <$> take k es) (args_of U rq (h, m))) m m') →
      (∀ h, h ∉ es.*1 → w !! h = sr_world s !! h) →
      ∀ h, match w !! h with Some m' => ∃ m, sr_world s !! h = Some m ∧ (m !! u_ent U = None → m' !! u_ent U = None) | None => sr_world s !! h = None end) as Hd.
    { clear. intros es w He Hc Ho h. destruct (decide (h ∈ es.*1)) as [Hin|Hin].
      - apply elem_of_list_fmap in Hin as ([h' m] & E & Hin). cbn in E. subst h'. pose proof Hin as Hin'. apply elem_of_list_lookup in Hin as [k Hk].
        destruct (Hc _ _ _ Hk) as (m' & -> & Ha). apply He in Hin' as [-> _]. exists m. split; [done|]. intros Hm. rewrite Ha, Hm. done.
      - rewrite Ho by done. destruct (sr_world s !! h); eauto. }
    apply map_eq. intros h. pose proof (Hd _ _ He1 Hc1 Ho1 h) as D1. pose proof (Hd _ _ He2 Hc2 Ho2 h) as D2.
    destruct (w1 !! h) as [m1|] eqn:E1, (w2 !! h) as [m2|] eqn:E2; [|destruct D1 as (? & ? & _); congruence|destruct D2 as (? & ? & _); congruence|done].
    f_equal. destruct D1 as (m & Hm & D1), D2 as (m0 & Hm0 & D2). rewrite Hm in Hm0. injection Hm0 as <-.
    pose proof (world_ent _ _ _ _ _ _ _ Hri Hm) as Hent. apply map_eq. intros c. destruct (decide (c = u_ent U)) as [->|Hc].
    + rewrite D1, D2; done.
    + pose proof (A1 h m1 c E1 Hc) as B1. pose proof (A2 h m2 c E2 Hc) as B2. rewrite B1 in B2. destruct (m1 !! c), (m2 !! c); congruence.
  - destruct H1 as [-> _], H2 as [-> _]. done.
Qed.

Lemma snext_det n rs0 ss op o ss1 ss2 rs : sys n rs0 ss → snext U ss op o ss1 → snext U ss op o ss2 →
  Forall2 (agrees U) rs ss1 → Forall2 (agrees U) rs ss2 → ss1 = ss2.
Proof.
  intros Hsys H1 H2 A1 A2. destruct op as [i op|i h j|i h j ph|i h j|i h j ph]; cbn in H1, H2.
  - destruct H1 as (s & s1 & Hs & H1 & ->), H2 as (s' & s2 & Hs' & H2 & ->). rewrite Hs in Hs'. injection Hs' as <-.
    destruct (sys_get _ _ _ _ _ Hsys Hs) as (r0 & iss & hp & _ & Hri). pose proof (lookup_lt_Some _ _ _ Hs) as Hlt.
    destruct (Forall2_lookup_r _ _ _ i s1 A1) as (r & Hr & B1); [by apply list_lookup_insert|].
    destruct (Forall2_lookup_r _ _ _ i s2 A2) as (r' & Hr' & B2); [by apply list_lookup_insert|].
    rewrite Hr in Hr'. injection Hr' as <-. by rewrite (rnext_det _ _ _ _ _ _ _ _ _ _ Hri H1 H2 B1 B2).
  - destruct H1 as (a & b & Ha & Hb & H1), H2 as (a' & b' & Ha' & Hb' & H2). assert (a' = a) as -> by congruence. assert (b' = b) as -> by congruence.
    destruct (sr_world a !! h); [|destruct H1 as [_ ->], H2 as [_ ->]; done].
    destruct H1 as [(_ & ? & _ & -> & ->)|(_ & -> & ->)], H2 as [(_ & ? & _ & E & ->)|(_ & E & ->)]; try done. injection E as ->. done.
  - destruct H1 as (a & b & Ha & Hb & H1), H2 as (a' & b' & Ha' & Hb' & H2). assert (a' = a) as -> by congruence. assert (b' = b) as -> by congruence.
    destruct (sr_world a !! h); [|destruct H1 as [_ ->], H2 as [_ ->]; done].
    destruct H1 as [(_ & -> & ->)|(_ & -> & ->)], H2 as [(_ & E & ->)|(_ & E & ->)]; done.
  - destruct H1 as (a & b & Ha & Hb & H1), H2 as (a' & b' & Ha' & Hb' & H2). assert (a' = a) as -> by congruence. assert (b' = b) as -> by congruence.
    destruct (sr_world a !! h); [|destruct H1 as [_ ->], H2 as [_ ->]; done].
    destruct H1 as (? & _ & -> & ->), H2 as (? & _ & E & ->). injection E as ->. done.
  - destruct H1 as (a & b & Ha & Hb & H1), H2 as (a' & b' & Ha' & Hb' & H2). assert (a' = a) as -> by congruence. assert (b' = b) as -> by congruence.
    destruct (sr_world a !! h); [|destruct H1 as [_ ->], H2 as [_ ->]; done].
    destruct H1 as [_ ->], H2 as [_ ->]. done.
Qed.

Lemma snext_no_ub ss op ss' : ¬ snext U ss op UB ss'.
Proof.
  destruct op as [i op|i h j|i h j ph|i h j|i h j ph]; cbn; try (intros (a & b & _ & _ & H); destruct (sr_world a !! h); unfold missing in H; naive_solver).
  intros (s & s' & _ & H & _). destruct op; cbn in H; unfold missing in H;
    try match goal with H : context [sr_world s !! ?h] |- _ => destruct (sr_world s !! h) as [m|] end;
    try match goal with H : context [match ?x with CtorOk _ => _ | CtorThrows => _ end] |- _ => destruct x end;
    try match goal with H : context [?m !! ?c] |- _ => destruct (m !! c) end; naive_solver.
Qed.

Lemma reach_sys n rs ss : reach U n rs ss → below_wrap (2 * n) → sys (2 * n) rs ss.
Proof.
  induction 1 as [k|n rs ss op rs' o ss' Hr IH Hper Hrun Hsn Hag]; intros Hbw; [apply sys_init|].
  replace (2 * S n) with (S (S (2 * n))) in * by lia.
  assert (sys (2 * n) rs ss) as Hsys by (apply IH; unfold below_wrap in *; lia).
  destruct (sop_step _ _ _ _ Hsys Hbw Hper) as [(rs1 & o1 & ss1 & E & Hn1 & Hs1 & _)|[E _]].
  - rewrite Hrun in E. injection E as <- <-.
    by rewrite (snext_det _ _ _ _ _ _ _ _ Hsys Hsn Hn1 Hag (sys_agrees _ _ _ Hs1)).
  - rewrite Hrun in E. cbn in E. subst o. by apply snext_no_ub in Hsn.
Qed.

(** The next step of a program. *)
Lemma reach_step n rs ss op rs' o : reach U n rs ss → below_wrap (2 * S n) → spermitted U ss op → run_sop U op rs = (rs', o) →
  (∃ ss', snext U ss op o ss' ∧ reach U (S n) rs' ss' ∧ all_stay rs rs' ss') ∨ (o = UB ∧ hazard rs ss op).
Proof.
  intros Hr Hbw Hper Hrun. replace (2 * S n) with (S (S (2 * n))) in * by lia.
  assert (sys (2 * n) rs ss) as Hsys by (apply (reach_sys _ _ _ Hr); unfold below_wrap in *; lia).
  destruct (sop_step _ _ _ _ Hsys Hbw Hper) as [(rs1 & o1 & ss1 & E & Hn1 & Hs1 & Hst)|[E Hf]].
  - left. rewrite Hrun in E. injection E as <- <-. exists ss1. split; [done|]. split; [|done]. eapply ReachS; try done. by eapply sys_agrees.
  - right. rewrite Hrun in E. done.
Qed.
End proofs.
