(** What alive, get, has and size report, in terms of the abstract machine. *)
From Verif Require Import Base Bits Layout PropLayout HandlePool HandleSpec HandlePoolProofs SparseMap SparseMapProofs
  HashTable HashTableProofs HashTableMap Bitset BitsetProofs ComponentSet ComponentSetProofs
  Chunk ChunkProofs Archetype ArchetypeProofs Registry RegistryStore RegistryProofs View ViewProofs RegSpec RegSpecProofs.

Section obs.
Context (U : universe).
Hypothesis HU : u_wf U.

Definition a_alive (s : sreg) (h : handle) : bool := bool_decide (h ∉ sr_dead s).
Definition a_miss (s : sreg) (h : handle) : exn := if decide (h ∈ sr_dead s) then EntityNotFound else OutOfRange.
Definition a_get (s : sreg) (h : handle) (c : cid) : outcome cell :=
  match sr_world s !! h with
  | Some m => match m !! c with Some v => Ok (CVal v) | None => Throw ComponentNotFound end
  | None => Throw (a_miss s h)
  end.
Definition a_has (s : sreg) (h : handle) (cs : list cid) : outcome bool :=
  match sr_world s !! h with
  | Some m => Ok (bool_decide (Forall (λ c, is_Some (m !! c)) cs))
  | None => Throw (a_miss s h)
  end.

Record shows (r : registry) (s : sreg) : Prop := {
  sh_alive : ∀ h, h ∈ sr_issued s → h ∉ sr_pending s → rg_alive r h = a_alive s h;
  sh_get : ∀ h c, h ∈ sr_issued s → h ∉ sr_pending s → c ≠ u_ent U → rg_get h c r = (r, a_get s h c);
  sh_has : ∀ h cs, h ∈ sr_issued s → h ∉ sr_pending s → rg_has h cs r = (r, a_has s h cs);
  sh_size : rg_size r = N.of_nat (size (sr_world s)) }.

Lemma miss_eq r s n iss hp h : ri U n r s iss hp → h ∈ sr_issued s → h ∉ sr_pending s → miss r h = a_miss s h.
Proof.
  intros [Hs H _] Hi Hp. unfold miss, a_miss. case_decide as Hd.
  - by rewrite (alive_dead U H h Hd).
  - by rewrite (alive_live U H h (Hs _ Hi) Hd Hp).
Qed.

Lemma ri_shows n r s iss hp : ri U n r s iss hp → shows r s.
Proof.
  intros Hri. pose proof Hri as [Hs H _]. split.
  - intros h Hi Hp. unfold a_alive. case_bool_decide as Hd; [by apply (alive_live U H); auto|].
    apply (alive_dead U H). by destruct (decide (h ∈ sr_dead s)).
  - intros h c Hi Hp Hc. unfold a_get. destruct (sr_world s !! h) as [m|] eqn:Hw.
    + by rewrite (get_spec U HU _ _ _ _ _ _ _ _ _ _ c H Hw Hc).
    + destruct (out_specs U _ _ _ _ _ _ _ _ h H Hw) as (_ & _ & _ & _ & E & _).
      rewrite <- (miss_eq _ _ _ _ _ _ Hri Hi Hp). apply E.
  - intros h cs Hi Hp. unfold a_has. destruct (sr_world s !! h) as [m|] eqn:Hw.
    + by rewrite (has_spec U _ _ _ _ _ _ _ _ _ _ cs H Hw).
    + destruct (out_specs U _ _ _ _ _ _ _ _ h H Hw) as (_ & _ & _ & _ & _ & E & _).
      rewrite <- (miss_eq _ _ _ _ _ _ Hri Hi Hp). apply E.
  - unfold rg_size. by rewrite (locs_count U HU H).
Qed.

(** The record of a program is consistent. *)
Definition swf (s : sreg) : Prop :=
  (∀ h, is_Some (sr_world s !! h) → h ∈ sr_issued s) ∧ sr_dead s ⊆ sr_issued s ∧ sr_pending s ⊆ sr_issued s.

Lemma called_dom rq f es w w' : enumerates U rq w es → called U rq f es w w' → ∀ h, is_Some (w' !! h) ↔ is_Some (w !! h).
Proof.
  intros [Hnd He] [Hc Ho] h. destruct (decide (h ∈ es.*1)) as [Hin|Hin]; [|by rewrite Ho].
  apply elem_of_list_fmap in Hin as ([h' m] & E & Hin). cbn in E. subst h'. pose proof Hin as Hin'. apply elem_of_list_lookup in Hin as [k Hk].
  destruct (Hc _ _ _ Hk) as (m' & -> & Ha). apply He in Hin' as [-> _]. split; eauto.
Qed.

Lemma swf_kill s h : swf s → is_Some (sr_world s !! h) → swf (kill s h).
Proof.
  intros (H1 & H2 & H3) Hh. split; [|split]; cbn; [|set_solver|done].
  intros g Hg. apply H1. by apply lookup_delete_is_Some in Hg as [_ ?].
Qed.
Lemma swf_put s h m : swf s → h ∈ sr_issued s → swf (with_world s (<[h := m]> (sr_world s))).
Proof.
  intros (H1 & H2 & H3) Hh. split; [|split]; cbn; [|done..].
  intros g Hg. apply lookup_insert_is_Some in Hg as [<-|[_ Hg]]; auto.
Qed.
Lemma swf_issue s h : swf s → swf (issue s h).
Proof. intros (H1 & H2 & H3). split; [|split]; cbn; set_solver. Qed.
Lemma swf_new s h m : swf s → swf (with_world (issue s h) (<[h := m]> (sr_world s))).
Proof. intros H. apply (swf_put (issue s h) h m); [by apply swf_issue|by left]. Qed.

Lemma rnext_swf s op o s' : swf s → permitted U s op → rnext U s op o s' → swf s'.
Proof.
  intros Hs Hp Hn. destruct op; cbn in Hp, Hn;
    try (destruct (sr_world s !! h) as [m|] eqn:Hw; [|by destruct Hn as [_ ->]]; assert (h ∈ sr_issued s) as Hi by (apply (proj1 Hs); eauto));
    repeat match goal with H : context [match ?x with CtorOk _ => _ | CtorThrows => _ end] |- _ => destruct x
      | H : context [match ?m !! ?c with Some _ => _ | None => _ end] |- _ => destruct (m !! c) end;
    try (destruct_and!; by simplify_eq); try (naive_solver eauto using swf_kill, swf_put, swf_issue, swf_new).
  - destruct Hp as [(Hv & _) _]. destruct Hn as [(_ & _ & ->)|(_ & _ & ->)]; [by apply swf_put|done].
  - destruct Hn as (h & _ & -> & ->). destruct Hs as (H1 & H2 & H3). split; [|split]; cbn; set_solver.
  - destruct Hn as [_ ->]. destruct Hs as (H1 & H2 & H3). split; [|split]; cbn; [done|done|]. intros ? []%not_elem_of_nil.
  - destruct Hn as (es & w' & He & _ & Hc & ->). destruct Hs as (H1 & H2 & H3). split; [|done]. cbn.
    intros g Hg. by apply H1, (called_dom _ _ _ _ _ He Hc).
Qed.

Lemma Forall_upd {A} (P : A → Prop) l (i : nat) x : Forall P l → P x → Forall P (<[i := x]> l).
Proof. apply Forall_insert. Qed.

Lemma snext_swf ss op o ss' : Forall swf ss → spermitted U ss op → snext U ss op o ss' → Forall swf ss'.
Proof.
  intros Hs Hp Hn. assert (∀ (i : nat) s, ss !! i = Some s → swf s) as Hl by (intros i s Hi; by eapply Forall_lookup_1).
  destruct op as [i op|i h j|i h j ph|i h j|i h j ph]; cbn in Hp, Hn.
  - destruct Hn as (s & s' & Hi & Hn & ->), Hp as (s0 & Hi0 & Hp). rewrite Hi in Hi0. injection Hi0 as <-.
    apply Forall_insert; [done|]. eapply rnext_swf; eauto.
  - destruct Hn as (a & b & Ha & Hb & Hn). pose proof (Hl _ _ Hb). destruct (sr_world a !! h); [|by destruct Hn as [_ ->]].
    destruct Hn as [(_ & ph & _ & _ & ->)|(_ & _ & ->)]; apply Forall_insert; try done. by apply swf_new.
  - destruct Hn as (a & b & Ha & Hb & Hn), Hp as (_ & a0 & b0 & _ & Hb0 & [(Hv & _) _]).
    assert (b0 = b) as -> by congruence. pose proof (Hl _ _ Hb). destruct (sr_world a !! h); [|by destruct Hn as [_ ->]].
    destruct Hn as [(_ & _ & ->)|(_ & _ & ->)]; apply Forall_insert; try done. by apply swf_put.
  - destruct Hn as (a & b & Ha & Hb & Hn). pose proof (Hl _ _ Hb). pose proof (Hl _ _ Ha). destruct (sr_world a !! h) eqn:Hw; [|by destruct Hn as [_ ->]].
    destruct Hn as (ph & _ & _ & ->). apply Forall_insert; [|by apply swf_new]. apply Forall_insert; [done|]. apply swf_kill; eauto.
  - destruct Hn as (a & b & Ha & Hb & Hn), Hp as (_ & a0 & b0 & _ & Hb0 & _ & [(Hv & _) _]).
    assert (b0 = b) as -> by congruence. pose proof (Hl _ _ Hb). pose proof (Hl _ _ Ha). destruct (sr_world a !! h) eqn:Hw; [|by destruct Hn as [_ ->]].
    destruct Hn as (_ & ->). apply Forall_insert; [|by apply swf_put]. apply Forall_insert; [done|]. apply swf_kill; eauto.
Qed.

Lemma reach_swf n rs ss : reach U n rs ss → Forall swf ss.
Proof.
  induction 1; [|by eapply snext_swf]. apply Forall_replicate. split; [|done]. cbn. intros h. by rewrite lookup_empty; intros [].
Qed.

(** One registry of a program. *)
Lemma reached_ri n r s : reached U n r s → below_wrap (2 * n) → ∃ iss hp, ri U (2 * n) r s iss hp.
Proof.
  intros (rs & ss & i & Hr & Hi & Hs) Hbw. pose proof (reach_sys U HU _ _ _ Hr Hbw) as Hsys.
  destruct (sys_get U _ _ _ _ _ Hsys Hs) as (r0 & iss & hp & Hi0 & Hri). rewrite Hi in Hi0. injection Hi0 as <-. eauto.
Qed.
Lemma reached_shows n r s : reached U n r s → below_wrap (2 * n) → shows r s.
Proof. intros Hr Hbw. destruct (reached_ri _ _ _ Hr Hbw) as (iss & hp & Hri). by eapply ri_shows. Qed.
Lemma reached_swf n r s : reached U n r s → swf s.
Proof. intros (rs & ss & i & Hr & Hi & Hs). eapply Forall_lookup_1; [by eapply reach_swf|done]. Qed.

Lemma reached_step n r s op r' o : reached U n r s → below_wrap (2 * S n) → permitted U s op → run_rop U op r = (r', o) →
  (∃ s', rnext U s op o s' ∧ reached U (S n) r' s' ∧ stays s' r r') ∨ (o = UB ∧ rhazard r s op).
Proof.
  intros (rs & ss & i & Hr & Hi & Hs) Hbw Hp E. assert (run_sop U (At i op) rs = (<[i := r']> rs, o)) as E'.
  { cbn. unfold on_reg. by rewrite Hi, E. }
  assert (spermitted U ss (At i op)) as Hsp by (exists s; auto).
  destruct (reach_step U HU _ _ _ _ _ _ Hr Hbw Hsp E') as [(ss' & Hn & Hr' & Hst)|[-> Hh]].
  - left. destruct Hn as (s0 & s' & Hs0 & Hn & ->). rewrite Hs in Hs0. injection Hs0 as <-. exists s'. split; [done|].
    pose proof (lookup_lt_Some _ _ _ Hi). pose proof (lookup_lt_Some _ _ _ Hs).
    assert (<[i := r']> rs !! i = Some r') by (by apply list_lookup_insert). assert (<[i := s']> ss !! i = Some s') by (by apply list_lookup_insert).
    split; [by exists (<[i := r']> rs), (<[i := s']> ss), i|]. eapply (Hst i); eauto.
  - right. split; [done|]. destruct Hh as (r0 & s0 & Hr0 & Hs0 & Hh). rewrite Hi in Hr0. rewrite Hs in Hs0. by simplify_eq.
Qed.

Lemma bw_half n : below_wrap (2 * S n) → below_wrap (2 * n).
Proof. unfold below_wrap. lia. Qed.

(** Two records that agree at [g]. *)
Lemma same_obs_from r s r' s' g : shows r s → shows r' s' → g ∈ sr_issued s → g ∉ sr_pending s →
  g ∈ sr_issued s' → g ∉ sr_pending s' → sr_world s' !! g = sr_world s !! g → (g ∈ sr_dead s' ↔ g ∈ sr_dead s) → same_obs U r r' g.
Proof.
  intros H H' Hi Hp Hi' Hp' Hw Hd.
  assert (a_miss s' g = a_miss s g) as Em by (unfold a_miss; destruct (decide (g ∈ sr_dead s')), (decide (g ∈ sr_dead s)); tauto).
  split; [|split].
  - rewrite (sh_alive _ _ H), (sh_alive _ _ H') by done. unfold a_alive. apply bool_decide_ext. tauto.
  - intros c Hc. rewrite (sh_get _ _ H), (sh_get _ _ H') by done. unfold a_get. cbn. by rewrite Hw, Em.
  - intros cs. rewrite (sh_has _ _ H), (sh_has _ _ H') by done. unfold a_has. cbn. by rewrite Hw, Em.
Qed.

(** Several steps. *)
Lemma steps_reach n rs ss l rs' ss' : reach U n rs ss → steps U rs ss l rs' ss' → reach U (n + length l) rs' ss'.
Proof.
  intros Hr Hs. revert n Hr. induction Hs as [|rs ss op rs1 o ss1 l rs' ss' Hp Hrun Hn Ha Hs IH]; intros n Hr.
  - by rewrite Nat.add_0_r.
  - cbn [length]. rewrite Nat.add_succ_r. apply (IH (S n)). by eapply ReachS.
Qed.

Lemma executes_reach k l rs : executes U (replicate k rg_init) l rs → below_wrap (2 * length l) →
  (∀ l1 op o l2 ss, l = l1 ++ (op, o) :: l2 → accepts U (replicate k sreg_init) l1 ss → spermitted U ss op) →
  (∀ op, (op, UB) ∉ l) → ∃ ss, accepts U (replicate k sreg_init) l ss ∧ reach U (length l) rs ss.
Proof.
  remember (replicate k rg_init) as rs0 eqn:E0. intros He. revert E0.
  induction He as [rs|rs l rs1 op rs' o He IH Hrun]; intros -> Hbw Hper Hub.
  - eexists. split; [constructor|]. apply Reach0.
  - rewrite app_length in Hbw |- *. cbn [length] in Hbw |- *. rewrite Nat.add_1_r in Hbw |- *.
    destruct IH as (ss & Ha & Hr); [done|by apply bw_half| | |].
    + intros l1 op1 o1 l2 ss -> Hacc. eapply (Hper l1 op1 o1 (l2 ++ [(op, o)])); [|done]. by rewrite <- app_assoc.
    + intros op1 Hin. apply (Hub op1). apply elem_of_app. by left.
    + destruct (reach_step U HU _ _ _ _ _ _ Hr Hbw (Hper l op o [] ss eq_refl Ha) Hrun) as [(ss' & Hn & Hr' & _)|[-> _]].
      * exists ss'. split; [by econstructor|done].
      * destruct (Hub op). apply elem_of_app. right. by left.
Qed.

(** Components that are not written. *)
Definition val_at (s : sreg) (h : handle) (c : cid) : option val := m ← sr_world s !! h; m !! c.

Lemma val_at_put s s' g m h c v : sr_world s' = <[g := m]> (sr_world s) → val_at s h c = Some v → (g = h → m !! c = Some v) →
  val_at s' h c = Some v.
Proof.
  unfold val_at. intros -> Hv Hm. destruct (decide (g = h)) as [->|Hn]; [rewrite lookup_insert; cbn; auto|by rewrite lookup_insert_ne].
Qed.

Lemma rnext_keeps s op o s' h c v : swf s → permitted U s op → rnext U s op o s' → ¬ writes 0 h c (At 0 op) →
  val_at s h c = Some v → val_at s' h c = Some v.
Proof.
  intros (Hw1 & Hw2 & Hw3) Hp Hn Hnw Hv. cbn in Hnw.
  assert (∃ m0, sr_world s !! h = Some m0 ∧ m0 !! c = Some v) as (m0 & Hm0 & Hc0).
  { unfold val_at in Hv. destruct (sr_world s !! h) as [m0|]; [|done]. eauto. }
  assert (h ∈ sr_issued s) as Hi by eauto.
  destruct op; cbn in Hn; try (destruct (sr_world s !! h0) as [m|] eqn:Hw; [|by destruct Hn as [_ ->]]).
  - destruct Hn as [(g & Hg & _ & ->)|(_ & _ & ->)]; [|done]. eapply val_at_put; [done|done|]. intros ->. done.
  - destruct Hn as [_ ->]. unfold val_at. cbn. rewrite lookup_delete_ne; [done|]. intros ->. apply Hnw. auto.
  - destruct x; [destruct Hn as [[_ ->]|(_ & _ & _ & ->)]|destruct Hn as [_ ->]]; try done.
    eapply val_at_put; [done|done|]. intros ->. rewrite lookup_insert_ne by (intros ->; apply Hnw; auto). congruence.
  - destruct (m !! c0) eqn:Hmc; [by destruct Hn as [_ ->]|]. destruct x; [|done]. destruct Hn as [[_ ->]|(_ & _ & ->)]; [|done].
    eapply val_at_put; [done|done|]. intros ->. rewrite lookup_insert_ne; congruence.
  - destruct Hn as [[_ ->]|(_ & _ & _ & ->)]; [|done]. eapply val_at_put; [done|done|]. intros ->. rewrite lookup_delete_ne by (intros ->; apply Hnw; auto). congruence.
  - destruct Hn as [_ ->]. done.
  - destruct Hn as (? & _ & _ & ->). done.
  - destruct Hn as (? & _ & _ & _ & ->). done.
  - destruct Hn as (? & _ & _ & _ & ->). done.
  - destruct Hn as [_ ->]. done.
  - destruct Hn as [(_ & g & Hg & _ & ->)|(_ & _ & ->)]; [|done]. eapply val_at_put; [done|done|]. intros ->. done.
  - destruct Hp as (_ & Hv0). destruct Hn as [(_ & _ & ->)|(_ & _ & ->)]; [|done]. eapply val_at_put; [done|done|]. intros ->. congruence.
  - destruct Hn as (? & _ & _ & ->). done.
  - destruct Hn as [_ ->]. done.
  - destruct Hn as (es & w' & [Hnd He] & _ & [Hc Ho] & ->). unfold val_at. cbn.
    destruct (decide (h ∈ es.*1)) as [Hin|Hin]; [|by rewrite Ho].
    apply elem_of_list_fmap in Hin as ([h' m] & E & Hin). cbn in E. subst h'. pose proof Hin as Hin'. apply elem_of_list_lookup in Hin as [k Hk].
    destruct (Hc _ _ _ Hk) as (m' & -> & Ha). apply He in Hin' as [Hm _]. assert (m = m0) as -> by congruence. cbn. rewrite Ha, Hc0.
    destruct (f _ _ c); [|done]. rewrite decide_False; [done|]. intros ?. apply Hnw. auto.
  - destruct Hn as [-> _]. done.
Qed.

Definition val_in (ss : list sreg) (i : nat) (h : handle) (c : cid) : option val := s ← ss !! i; val_at s h c.

Lemma val_in_upd ss (i j : nat) s s' h c v : ss !! j = Some s → val_in ss i h c = Some v →
  (j = i → val_at s h c = Some v → val_at s' h c = Some v) → val_in (<[j := s']> ss) i h c = Some v.
Proof.
  unfold val_in. intros Hj Hv Hs. destruct (decide (j = i)) as [->|Hn]; [|by rewrite list_lookup_insert_ne].
  rewrite list_lookup_insert by (by eapply lookup_lt_Some). rewrite Hj in Hv. cbn in *. auto.
Qed.

Lemma snext_keeps ss op o ss' i h c v : Forall swf ss → spermitted U ss op → snext U ss op o ss' → ¬ writes i h c op →
  val_in ss i h c = Some v → val_in ss' i h c = Some v.
Proof.
  intros Hs Hp Hn Hnw Hv. assert (∀ (i : nat) s, ss !! i = Some s → swf s) as Hl by (intros j s Hi; by eapply Forall_lookup_1).
  assert (∀ (b : sreg) g m, swf b → val_at b h c = Some v → sr_world b !! g = None → val_at (with_world b (<[g := m]> (sr_world b))) h c = Some v) as Hput.
  { intros b g m Hb Hvb Hg. eapply val_at_put; [done|done|]. intros ->. unfold val_at in Hvb. by rewrite Hg in Hvb. }
  assert (∀ (b : sreg) g, swf b → g ∉ sr_issued b → sr_world b !! g = None) as Hfresh.
  { intros b g (Hb & _) Hg. destruct (sr_world b !! g) eqn:E; [|done]. destruct Hg. eauto. }
  destruct op as [j op|i' g j|i' g j ph|i' g j|i' g j ph]; cbn in Hp, Hn.
  - destruct Hn as (s & s' & Hj & Hn & ->), Hp as (s0 & Hj0 & Hp). rewrite Hj in Hj0. injection Hj0 as <-.
    eapply val_in_upd; [done|done|]. intros ->. apply rnext_keeps with (op := op) (o := o); eauto. intros [_ Hw]. apply Hnw. by split.
  - destruct Hn as (a & b & Ha & Hb & Hn). destruct (sr_world a !! g); [|by destruct Hn as [_ ->]].
    destruct Hn as [(_ & ph & Hph & _ & ->)|(_ & _ & ->)]; (eapply val_in_upd; [done|done|]); [|done].
    intros -> Hvb. apply (Hput b); eauto.
  - destruct Hn as (a & b & Ha & Hb & Hn), Hp as (_ & a0 & b0 & _ & Hb0 & [_ Hv0]). assert (b0 = b) as -> by congruence.
    destruct (sr_world a !! g); [|by destruct Hn as [_ ->]].
    destruct Hn as [(_ & _ & ->)|(_ & _ & ->)]; (eapply val_in_upd; [done|done|]); [|done]. intros -> Hvb. apply (Hput b); eauto.
  - destruct Hn as (a & b & Ha & Hb & Hn), Hp as (Hij & _). destruct (sr_world a !! g); [|by destruct Hn as [_ ->]].
    destruct Hn as (ph & Hph & _ & ->). eapply (val_in_upd _ _ _ b); [by rewrite list_lookup_insert_ne| |].
    + eapply val_in_upd; [done|done|]. intros -> Hva. unfold val_at in *. cbn. rewrite lookup_delete_ne; [done|]. intros ->. by apply Hnw.
    + intros -> Hvb. apply (Hput b); eauto.
  - destruct Hn as (a & b & Ha & Hb & Hn), Hp as (Hij & a0 & b0 & _ & Hb0 & _ & [_ Hv0]). assert (b0 = b) as -> by congruence.
    destruct (sr_world a !! g); [|by destruct Hn as [_ ->]].
    destruct Hn as (_ & ->). eapply (val_in_upd _ _ _ b); [by rewrite list_lookup_insert_ne| |].
    + eapply val_in_upd; [done|done|]. intros -> Hva. unfold val_at in *. cbn. rewrite lookup_delete_ne; [done|]. intros ->. by apply Hnw.
    + intros -> Hvb. apply (Hput b); eauto.
Qed.

Lemma steps_keep rs ss l rs' ss' i h c v : steps U rs ss l rs' ss' → Forall swf ss → Forall (λ x, ¬ writes i h c x.1) l →
  val_in ss i h c = Some v → val_in ss' i h c = Some v.
Proof.
  induction 1 as [|rs ss op rs1 o ss1 l rs' ss' Hp Hrun Hn Ha Hs IH]; intros Hwf Hl Hv; [done|].
  inversion Hl as [|? ? Hl1 Hl2]; subst. apply IH; [by eapply snext_swf|done|]. by eapply snext_keeps.
Qed.

(** Counting. *)
Definition count (b : bool) : nat := if b then 1 else 0.
Definition world_size (ss : list sreg) (i : nat) : nat := from_option (λ s, size (sr_world s)) 0 (ss !! i).

Lemma size_put (w : world) h m : size (<[h := m]> w) = match w !! h with Some _ => size w | None => S (size w) end.
Proof. rewrite map_size_insert. by destruct (w !! h). Qed.

Lemma rnext_count s op o s' : swf s → permitted U s op → rnext U s op o s' →
  size (sr_world s') + count (taken 0 (At 0 op, o)) = size (sr_world s) + count (placed 0 (At 0 op, o)).
Proof.
  intros (Hw1 & Hw2 & Hw3) Hp Hn.
  assert (∀ g, g ∉ sr_issued s → sr_world s !! g = None) as Hfresh.
  { intros g Hg. destruct (sr_world s !! g) eqn:E; [|done]. destruct Hg. eauto. }
  assert (∀ h, missing s h o → ∃ e, o = Throw e) as Hmiss by (intros h (e & -> & _); eauto).
  destruct op; cbn in Hn; try (destruct (sr_world s !! h) as [m|] eqn:Hw; [|destruct Hn as [(e & ->)%Hmiss ->]; done]).
  - destruct Hn as [(g & Hg & -> & ->)|(-> & _ & ->)]; [|done]. cbn. rewrite size_put, (Hfresh g Hg), bool_decide_eq_true_2 by done. cbn. lia.
  - destruct Hn as [-> ->]. cbn. rewrite map_size_delete, Hw, bool_decide_eq_true_2 by done. cbn.
    destruct (size (sr_world s)) eqn:E; [|lia]. apply map_size_empty_inv in E. by rewrite E, lookup_empty in Hw.
  - destruct x; [destruct Hn as [[-> ->]|(-> & _ & _ & ->)]|destruct Hn as [-> ->]]; try done. cbn. by rewrite size_put, Hw.
  - destruct (m !! c) eqn:Hmc; [by destruct Hn as [-> ->]|]. destruct x; [|done]. destruct Hn as [[-> ->]|(-> & _ & ->)]; [|done]. cbn. by rewrite size_put, Hw.
  - destruct Hn as [[-> ->]|(-> & _ & _ & ->)]; [|done]. cbn. by rewrite size_put, Hw.
  - destruct Hn as [-> ->]. done.
  - destruct Hn as (? & -> & _ & ->). done.
  - destruct Hn as (? & -> & _ & _ & ->). done.
  - destruct Hn as (? & -> & _ & _ & ->). done.
  - destruct Hn as [-> ->]. done.
  - destruct Hn as [(_ & g & Hg & -> & ->)|(_ & -> & ->)]; [|done]. cbn. rewrite size_put, (Hfresh g Hg), bool_decide_eq_true_2 by done. cbn. lia.
  - destruct Hp as (_ & Hv). destruct Hn as [(_ & -> & ->)|(_ & -> & ->)]; [|done]. cbn. rewrite size_put, Hv, bool_decide_eq_true_2 by done. cbn. lia.
  - destruct Hn as (? & _ & -> & ->). done.
  - destruct Hn as [-> ->]. done.
  - destruct Hn as (es & w' & He & -> & Hc & ->). cbn. rewrite !Nat.add_0_r, <- !size_dom. f_equal.
    apply set_eq. intros g. rewrite !elem_of_dom. by apply (called_dom _ _ _ _ _ He Hc).
  - destruct Hn as [-> _]. done.
Qed.

Lemma world_size_upd ss (i j : nat) s s' : ss !! j = Some s →
  world_size (<[j := s']> ss) i = if decide (j = i) then size (sr_world s') else world_size ss i.
Proof.
  intros Hj. unfold world_size. case_decide as E; [subst; by rewrite list_lookup_insert by (by eapply lookup_lt_Some)|by rewrite list_lookup_insert_ne].
Qed.

Lemma snext_count ss op o ss' i : Forall swf ss → spermitted U ss op → snext U ss op o ss' →
  world_size ss' i + count (taken i (op, o)) = world_size ss i + count (placed i (op, o)).
Proof.
  intros Hs Hp Hn. assert (∀ (i : nat) s, ss !! i = Some s → swf s) as Hl by (intros j s Hi; by eapply Forall_lookup_1).
  assert (∀ (b : sreg) g, swf b → g ∉ sr_issued b → sr_world b !! g = None) as Hfresh.
  { intros b g (Hb & _) Hg. destruct (sr_world b !! g) eqn:E; [|done]. destruct Hg. eauto. }
  assert (∀ s h, missing s h o → ∃ e, o = Throw e) as Hmiss by (intros s h (e & -> & _); eauto).
  assert (∀ (j : nat) s, ss !! j = Some s → world_size ss j = size (sr_world s)) as Hws by (intros j s Hj; unfold world_size; by rewrite Hj).
  assert (∀ (w : world) h m, w !! h = Some m → S (size (delete h w)) = size w) as Hdel.
  { intros w h m Hh. rewrite map_size_delete, Hh. cbn. destruct (size w) eqn:E; [|lia]. apply map_size_empty_inv in E. by rewrite E, lookup_empty in Hh. }
  destruct op as [j op|i' g j|i' g j ph|i' g j|i' g j ph]; cbn [spermitted snext] in Hp, Hn.
  - destruct Hn as (s & s' & Hj & Hn & ->), Hp as (s0 & Hj0 & Hp). rewrite Hj in Hj0. injection Hj0 as <-.
    rewrite (world_size_upd _ _ _ _ _ Hj). pose proof (rnext_count _ _ _ _ (Hl _ _ Hj) Hp Hn) as Hc.
    case_decide as E; [subst j; rewrite (Hws _ _ Hj); destruct op, o; cbn in *; rewrite ?bool_decide_eq_true_2 in * by done; done|].
    destruct op, o; cbn; rewrite ?bool_decide_eq_false_2 by done; done.
  - destruct Hn as (a & b & Ha & Hb & Hn). destruct (sr_world a !! g); [|destruct Hn as [(e & ->)%Hmiss ->]; done].
    destruct Hn as [(_ & ph & Hph & -> & ->)|(_ & -> & ->)]; rewrite (world_size_upd _ _ _ _ _ Hb); cbn.
    + case_decide as E; [subst|by rewrite bool_decide_eq_false_2]. rewrite bool_decide_eq_true_2, size_put, (Hfresh b ph (Hl _ _ Hb) Hph), (Hws _ _ Hb) by done. cbn. lia.
    + case_decide as E; [subst|done]. by rewrite (Hws _ _ Hb).
  - destruct Hn as (a & b & Ha & Hb & Hn), Hp as (_ & a0 & b0 & _ & Hb0 & [_ Hv0]). assert (b0 = b) as -> by congruence.
    destruct (sr_world a !! g); [|destruct Hn as [(e & ->)%Hmiss ->]; done].
    destruct Hn as [(_ & -> & ->)|(_ & -> & ->)]; rewrite (world_size_upd _ _ _ _ _ Hb); cbn.
    + case_decide as E; [subst|by rewrite bool_decide_eq_false_2]. rewrite bool_decide_eq_true_2, size_put, Hv0, (Hws _ _ Hb) by done. cbn. lia.
    + case_decide as E; [subst|done]. by rewrite (Hws _ _ Hb).
  - destruct Hn as (a & b & Ha & Hb & Hn), Hp as (Hij & _). destruct (sr_world a !! g) eqn:Hg; [|destruct Hn as [(e & ->)%Hmiss ->]; done].
    destruct Hn as (ph & Hph & -> & ->). rewrite (world_size_upd _ i j b); [|by rewrite list_lookup_insert_ne]. rewrite (world_size_upd _ _ _ _ _ Ha). cbn.
    rewrite size_put, (Hfresh b ph (Hl _ _ Hb) Hph). pose proof (Hdel _ _ _ Hg).
    repeat case_decide; repeat case_bool_decide; subst; try done; cbn; rewrite ?(Hws _ _ Hb), ?(Hws _ _ Ha); lia.
  - destruct Hn as (a & b & Ha & Hb & Hn), Hp as (Hij & a0 & b0 & _ & Hb0 & _ & [_ Hv0]). assert (b0 = b) as -> by congruence.
    destruct (sr_world a !! g) eqn:Hg; [|destruct Hn as [(e & ->)%Hmiss ->]; done].
    destruct Hn as (-> & ->). rewrite (world_size_upd _ i j b); [|by rewrite list_lookup_insert_ne]. rewrite (world_size_upd _ _ _ _ _ Ha). cbn.
    rewrite size_put, Hv0. pose proof (Hdel _ _ _ Hg).
    repeat case_decide; repeat case_bool_decide; subst; try done; cbn; rewrite ?(Hws _ _ Hb), ?(Hws _ _ Ha); lia.
Qed.

Lemma steps_count rs ss l rs' ss' i : steps U rs ss l rs' ss' → Forall swf ss →
  world_size ss' i + length (filter (λ x, taken i x = true) l) = world_size ss i + length (filter (λ x, placed i x = true) l).
Proof.
  induction 1 as [|rs ss op rs1 o ss1 l rs' ss' Hp Hrun Hn Ha Hs IH]; intros Hwf; [done|].
  pose proof (snext_count _ _ _ _ i Hwf Hp Hn) as Hc. specialize (IH (snext_swf _ _ _ _ Hwf Hp Hn)).
  rewrite !filter_cons. unfold count in Hc.
  destruct (taken i (op, o)), (placed i (op, o)); rewrite ?(decide_True (P := true = true)), ?(decide_False (P := false = true)) by done; cbn [length]; lia.
Qed.
End obs.
