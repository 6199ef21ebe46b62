(** Flushing follows the recorded calls. *)
From Verif Require Import Base Bits Layout HandlePool HandleSpec HandlePoolProofs SparseMap SparseMapProofs
  HashTable HashTableProofs HashTableMap Bitset BitsetProofs ComponentSet ComponentSetProofs
  Chunk ChunkProofs Archetype ArchetypeProofs Registry RegistryStore RegistryProofs View ViewProofs RegSpec RegSpecProofs
  RegObs Command CommandSpec.

Section proofs.
Context (U : universe).
Hypothesis HU : u_wf U.


Lemma at_step n rs ss (j : nat) s op rs' o : reach U n rs ss → below_wrap (2 * S n) → ss !! j = Some s → permitted U s op →
  run_sop U (At j op) rs = (rs', o) →
  (∃ s', rnext U s op o s' ∧ reach U (S n) rs' (<[j := s']> ss)) ∨ (o = UB ∧ stuck U rs').
Proof.
  intros Hr Hbw Hs Hp E. assert (spermitted U ss (At j op)) as Hsp by (by exists s).
  destruct (reach_step U HU _ _ _ _ _ _ Hr Hbw Hsp E) as [(ss' & (s0 & s' & Hs0 & Hn & ->) & Hr' & _)|[-> Hz]].
  - rewrite Hs in Hs0. injection Hs0 as <-. eauto.
  - right. split; [done|]. exists n, rs, ss, (At j op). done.
Qed.

Lemma reached_at n rs ss (j : nat) t : reach U n rs ss → ss !! j = Some t → reached U n (default rg_init (rs !! j)) t.
Proof.
  intros Hr Ht. exists rs, ss, j. split; [done|]. split; [|done].
  assert (length rs = length ss) as Hl. { clear Ht. induction Hr; [by rewrite !replicate_length|by eapply Forall2_length]. }
  destruct (lookup_lt_is_Some_2 rs j) as [r ->]; [|done]. rewrite Hl. by eapply lookup_lt_Some.
Qed.

Definition qrel (t : sreg) (c : command) (k : crec) (g : handle) : Prop :=
  match c, k with
  | CmdCreate st rsv, KCreate args => rsv = g ∧ sr_world t !! st = Some (list_to_map args)
  | CmdClone h rsv, KClone h' => rsv = g ∧ h' = h
  | CmdSet st h c, KSet h' c' v => h' = h ∧ c' = c ∧ c ≠ u_ent U ∧ sr_world t !! st = Some {[c := v]}
  | CmdRemove h c, KRemove h' c' => h' = h ∧ c' = c ∧ c ≠ u_ent U
  | CmdDestroy h, KDestroy h' => h' = h
  | _, _ => False
  end.
Definition staged (c : command) : option handle := match c with CmdCreate st _ | CmdSet st _ _ => Some st | _ => None end.

Lemma qrel_same t t' c k g : (∀ st, staged c = Some st → sr_world t' !! st = sr_world t !! st) → qrel t c k g → qrel t' c k g.
Proof.
  intros H. destruct c, k; cbn; try done; rewrite (H _ eq_refl); done.
Qed.

Definition fitsq (i : nat) (ss : list sreg) (f : nat * command) (x : crec * handle) : Prop :=
  f.1 ≠ i ∧ (∃ t, ss !! f.1 = Some t ∧ sr_pending t = [] ∧ qrel t f.2 x.1 x.2).
Definition stagings (F : list (nat * command)) : list (nat * handle) := omap (λ f, pair f.1 <$> staged f.2) F.

Record pinv (n i : nat) (I : list handle) (J : list nat) (rs : list registry) (ss : list sreg) (s : sreg) (F : list (nat * command)) (K : list (crec * handle)) : Prop := {
  pv_reach : reach U n rs ss;
  pv_rec : ss !! i = Some s;
  pv_pend : sr_pending s = [];
  pv_iss : sr_issued s = I;
  pv_stg : ∀ j, j ∈ J → j ≠ i ∧ ∃ t, ss !! j = Some t ∧ sr_pending t = [];
  pv_fit : Forall2 (fitsq i ss) F K;
  pv_nd : NoDup (stagings F);
  pv_made : NoDup (made K);
  pv_vac : ∀ g, g ∈ made K → vacant s g }.

Lemma made_cons k g K : made ((k, g) :: K) = (if makes k then g :: made K else made K).
Proof. unfold made. rewrite filter_cons. cbn. destruct (makes k); [rewrite decide_True by done|rewrite decide_False by done]; done. Qed.
Lemma made_sub k g K g' : g' ∈ made K → g' ∈ made ((k, g) :: K).
Proof. rewrite made_cons. destruct (makes k); [by right|done]. Qed.

Lemma pinv_next n i I J rs ss s stg c F k g K n' rs' ss' s' : pinv n i I J rs ss s ((stg, c) :: F) ((k, g) :: K) →
  reach U n' rs' ss' → ss' !! i = Some s' → sr_pending s' = [] → sr_issued s' = sr_issued s →
  (∀ g', g' ∈ made K → (makes k = true → g' ≠ g) → vacant s g' → vacant s' g') →
  (∀ j t, j ≠ i → ss !! j = Some t → ∃ t', ss' !! j = Some t' ∧ sr_pending t' = sr_pending t ∧
     ∀ st, (j = stg → staged c ≠ Some st) → sr_world t' !! st = sr_world t !! st) →
  pinv n' i I J rs' ss' s' F K.
Proof.
  intros H Hr Hs Hp Hi Hv Ht. pose proof (pv_made _ _ _ _ _ _ _ _ _ H) as Hm. rewrite made_cons in Hm. split; try done.
  - rewrite Hi. apply (pv_iss _ _ _ _ _ _ _ _ _ H).
  - intros j Hj. destruct (pv_stg _ _ _ _ _ _ _ _ _ H j Hj) as (Hji & t & Htj & Htp). split; [done|]. destruct (Ht _ _ Hji Htj) as (t' & ? & ? & _). exists t'. split; [done|congruence].
  - pose proof (pv_fit _ _ _ _ _ _ _ _ _ H) as Hf. apply Forall2_cons in Hf as [_ Hf].
    assert (∀ f st, f ∈ F → staged f.2 = Some st → f.1 = stg → staged c ≠ Some st) as Hne.
    { intros [j d] st Hin Hst Ej Hc. cbn in *. subst j. pose proof (pv_nd _ _ _ _ _ _ _ _ _ H) as Hnd. unfold stagings in Hnd. cbn in Hnd.
      rewrite Hc in Hnd. cbn in Hnd. apply NoDup_cons in Hnd as [Hnd _]. apply Hnd. apply elem_of_list_omap. exists (stg, d). cbn. by rewrite Hst. }
    clear -Hf Ht Hne. induction Hf as [|f x F K [Hf1 (t & Htj & Htp & Hq)] Hf IH]; constructor.
    + split; [done|]. destruct (Ht _ _ Hf1 Htj) as (t' & Ht' & Hp' & Hw'). exists t'. split; [done|]. split; [congruence|].
      eapply qrel_same; [|done]. intros st Hst. apply Hw'. intros Ej. apply (Hne f); [by left|done|done].
    + apply IH. intros f' st Hin. apply Hne. by right.
  - pose proof (pv_nd _ _ _ _ _ _ _ _ _ H) as Hnd. unfold stagings in *. cbn in Hnd. destruct (staged c); cbn in Hnd; [by apply NoDup_cons in Hnd as [_ ?]|done].
  - destruct (makes k); [by apply NoDup_cons in Hm as [_ ?]|done].
  - intros g' Hg'. apply Hv; [done| |apply (pv_vac _ _ _ _ _ _ _ _ _ H); by apply made_sub].
    intros Hk ->. rewrite Hk in Hm. apply NoDup_cons in Hm as [? _]. done.
Qed.

(** Only the record of registry [i] changed. *)
Lemma pinv_dst n i I J rs ss s stg c F k g K n' rs' s' : pinv n i I J rs ss s ((stg, c) :: F) ((k, g) :: K) →
  reach U n' rs' (<[i := s']> ss) → sr_pending s' = [] → sr_issued s' = sr_issued s →
  (∀ g', g' ∈ made K → (makes k = true → g' ≠ g) → vacant s g' → vacant s' g') →
  pinv n' i I J rs' (<[i := s']> ss) s' F K.
Proof.
  intros H Hr Hp Hi Hv. eapply pinv_next; try done.
  - apply list_lookup_insert. eapply lookup_lt_Some, (pv_rec _ _ _ _ _ _ _ _ _ H).
  - intros j t Hj Ht. exists t. by rewrite list_lookup_insert_ne.
Qed.

Lemma vacant_with s w g : (sr_world s !! g = None → w !! g = None) → vacant s g → vacant (with_world s w) g.
Proof. intros H [Hl Hw]. split; [done|]. by apply H. Qed.
Lemma vacant_kill s h g : is_Some (sr_world s !! h) → vacant s g → vacant (kill s h) g.
Proof.
  intros [m Hm] [(Hi & Hd & Hp) Hw]. assert (g ≠ h) as Hne by (intros ->; congruence). split; [split; [done|split; [|done]]|].
  - cbn. intros [?|?]%elem_of_cons; done.
  - cbn. by rewrite lookup_delete_ne.
Qed.

(** What became of the staging registry. *)
Definition restaged' (i stg : nat) (k : crec) (o : outcome unit) (ss ss' : list sreg) : Prop :=
  (∀ j, j ≠ i → j ≠ stg → (size ∘ sr_world) <$> ss' !! j = (size ∘ sr_world) <$> ss !! j) ∧
  ∃ t t', ss !! stg = Some t ∧ ss' !! stg = Some t' ∧
    size (sr_world t) = size (sr_world t') + match k, o with KCreate _, Ok _ => 1 | _, _ => 0 end.

Lemma restaged_dst (i stg : nat) k o (ss : list sreg) t s' : ss !! stg = Some t → stg ≠ i → match k with KCreate _ => False | _ => True end →
  restaged' i stg k o ss (<[i := s']> ss).
Proof.
  intros Ht Hn Hk. split.
  - intros j Hj _. by rewrite list_lookup_insert_ne.
  - exists t, t. rewrite list_lookup_insert_ne by done. split; [done|]. split; [done|]. destruct k; done || lia.
Qed.

Lemma direct_missing s h (o : outcome rres) e : missing s h o → omap_out (λ _, ()) o = Throw e → absent (Throw e).
Proof. intros (e' & -> & _ & _ & He) [= <-]. by destruct He as [->| ->]; [left|right]. Qed.

Lemma call_unit_eq op rs : call_unit U op rs = let '(rs', o) := run_sop U op rs in (rs', omap_out (λ _, ()) o).
Proof. unfold call_unit, call, bind, ret. destruct (run_sop U op rs) as [rs' [x|e|]]; done. Qed.

Lemma exec_step n i I J rs ss s stg c F k g K rs' o : pinv n i I J rs ss s ((stg, c) :: F) ((k, g) :: K) → below_wrap (2 * (n + 3)) →
  exec_cmd U stg i c rs = (rs', o) →
  (∃ n' ss' s', n' ≤ n + 3 ∧ pinv n' i I J rs' ss' s' F K ∧ direct U (sr_world s) k g o (sr_world s') ∧ restaged' i stg k o ss ss' ∧
     (o = Ok () → sr_failed s' = sr_failed s)) ∨ (o = UB ∧ stuck U rs').
Proof.
  intros H Hbw E. pose proof (pv_fit _ _ _ _ _ _ _ _ _ H) as Hf. apply Forall2_cons in Hf as [(Hsi & (t & Ht & Htp & Hq)) _]. cbn in Hsi, Ht, Hq.
  pose proof (pv_rec _ _ _ _ _ _ _ _ _ H) as Hs. pose proof (pv_pend _ _ _ _ _ _ _ _ _ H) as Hp. pose proof (pv_reach _ _ _ _ _ _ _ _ _ H) as Hr.
  assert (below_wrap (2 * S n)) as Hb1 by (unfold below_wrap in *; lia).
  pose proof (pv_vac _ _ _ _ _ _ _ _ _ H g) as Hvg. rewrite made_cons in Hvg.
  destruct c as [st rsv|h rsv|st h c|h c|h], k as [args|h'|h' c' v|h' c'|h']; cbn in Hq; try done; cbn [exec_cmd] in E; rewrite ?call_unit_eq in E.
  - destruct Hq as [-> Hst]. specialize (Hvg (elem_of_list_here _ _)). destruct (run_sop U _ rs) as [rs1 o1] eqn:E1. injection E as <- <-.
    assert (st ∈ sr_issued t) as Hsti. { destruct (reached_swf U HU n (default rg_init (rs !! stg)) t) as (W & _); [|by eapply W; eauto].
      by eapply reached_at. }
    assert (spermitted U ss (MoveInto stg st i g)) as Hsp by (split; [done|]; exists t, s; done).
    destruct (reach_step U HU _ _ _ _ _ _ Hr Hb1 Hsp E1) as [(ss' & Hn & Hr' & _)|[-> Hz]].
    2:{ right. split; [done|]. exists n, rs, ss, (MoveInto stg st i g). done. }
    left. destruct Hn as (t0 & s0 & Ht0 & Hs0 & Hn). assert (t0 = t) as -> by congruence. assert (s0 = s) as -> by congruence.
    rewrite Hst in Hn. destruct Hn as [-> ->]. cbn [omap_out].
    pose proof (lookup_lt_Some _ _ _ Hs) as Li. pose proof (lookup_lt_Some _ _ _ Ht) as Lt.
    eexists (S n), _, _. split; [lia|]. split; [|split; [|split]].
    + eapply pinv_next; [done|exact Hr'|apply list_lookup_insert; by rewrite insert_length|done|done|..].
      * intros g' _ Hne. apply vacant_with. intros ?. rewrite lookup_insert_ne by (intros ->; by apply Hne). done.
      * intros j t' Hj Ht'. rewrite list_lookup_insert_ne by done. destruct (decide (j = stg)) as [->|Hjs].
        -- assert (t' = t) as -> by congruence. exists (kill t st). rewrite list_lookup_insert by done. split; [done|]. split; [done|].
           intros st' Hst'. cbn. rewrite lookup_delete_ne; [done|]. intros ->. by apply Hst'.
        -- exists t'. rewrite list_lookup_insert_ne by done. done.
    + done.
    + split.
      * intros j Hj1 Hj2. by rewrite !list_lookup_insert_ne.
      * exists t, (kill t st). rewrite list_lookup_insert_ne, list_lookup_insert by done. split; [done|]. split; [done|]. cbn.
        rewrite map_size_delete, Hst. assert (size (sr_world t) ≠ 0); [|lia]. intros E0%map_size_empty_inv. by rewrite E0, lookup_empty in Hst.
    + by intros _.
  - destruct Hq as [-> ->]. specialize (Hvg (elem_of_list_here _ _)). destruct (run_sop U _ rs) as [rs1 o1] eqn:E1. injection E as <- <-.
    destruct (at_step _ _ _ _ _ (OCloneInto h g) _ _ Hr Hb1 Hs Hvg E1) as [(s' & Hn & Hr')|[-> ?]]; [|by right]. left.
    exists (S n), (<[i := s']> ss), s'. split; [lia|]. cbn in Hn |- *. destruct (sr_world s !! h) as [m|] eqn:Hw.
    + destruct Hn as [(Hc & -> & ->)|(Hc & -> & ->)]; (split; [|split; [|split; [by eapply restaged_dst|by intros ?]]]).
      * eapply pinv_dst; try done. intros g' _ Hne. apply vacant_with. intros ?. rewrite lookup_insert_ne by (intros ->; by apply Hne). done.
      * by left.
      * eapply pinv_dst; done.
      * by right.
    + destruct Hn as [Hn ->]. split; [|split; [|split; [by eapply restaged_dst|by intros _]]]; [eapply pinv_dst; done|]. destruct Hn as (e & -> & Hn). split; [|done].
      eapply direct_missing; [exists e; split; [reflexivity|exact Hn]|done].
  - destruct Hq as (-> & -> & Hce & Hst). unfold bind in E. unfold call in E.
    assert (st ∈ sr_issued t) as Hsti. { destruct (reached_swf U HU n (default rg_init (rs !! stg)) t) as (W & _); [|by eapply W; eauto].
      by eapply reached_at. }
    destruct (run_sop U (At stg (OGet st c)) rs) as [rs1 o1] eqn:E1.
    destruct (at_step _ _ _ _ _ (OGet st c) _ _ Hr Hb1 Ht Hce E1) as [(t1 & Hn1 & Hr1)|[-> ?]]; [|injection E as <- <-; by right].
    cbn in Hn1. rewrite Hst, lookup_singleton in Hn1. destruct Hn1 as [-> ->]. rewrite list_insert_id in Hr1 by done. rewrite !call_unit_eq in E.
    destruct (run_sop U (At i (OSet h c (CtorOk v))) rs1) as [rs2 o2] eqn:E2.
    assert (below_wrap (2 * S (S n))) as Hb2 by (unfold below_wrap in *; lia).
    assert (permitted U s (OSet h c (CtorOk v))) as Hp2 by done.
    destruct (at_step _ _ _ _ _ _ _ _ Hr1 Hb2 Hs Hp2 E2) as [(s' & Hn & Hr2)|[-> ?]]; [|injection E as <- <-; by right].
    assert (∀ e, o2 = Throw e → rs' = rs2 ∧ o = Throw e → sr_pending s' = [] → sr_issued s' = sr_issued s → sr_world s' = sr_world s →
      (∀ g', vacant s g' → vacant s' g') → direct U (sr_world s) (KSet h c v) g (Throw e) (sr_world s) →
      ∃ n' ss' s', n' ≤ n + 3 ∧ pinv n' i I J rs' ss' s' F K ∧ direct U (sr_world s) (KSet h c v) g o (sr_world s') ∧ restaged' i stg (KSet h c v) o ss ss' ∧
        (o = Ok () → sr_failed s' = sr_failed s)) as Hthrow.
    { intros e -> [-> ->] Hp' Hi' Hw' Hv' Hd. exists (S (S n)), (<[i := s']> ss), s'. split; [lia|]. split; [|split; [by rewrite Hw'|split; [by eapply restaged_dst|by intros ?]]].
      eapply pinv_dst; try done. auto. }
    destruct (sr_world s !! h) as [m|] eqn:Hw; cbn in Hn; rewrite Hw in Hn.
    2:{ destruct Hn as [Hn ->]. left. destruct Hn as (e & -> & Hn). cbn in E. injection E as <- <-. apply (Hthrow e); try done.
        cbn. rewrite Hw. split; [|done]. eapply direct_missing; [exists e; split; [reflexivity|exact Hn]|done]. }
    destruct Hn as [[-> ->]|(-> & Hmc & Hrf & ->)].
    2:{ left. cbn in E. injection E as <- <-. eapply Hthrow; try done. cbn. rewrite Hw. by right. }
    cbn [omap_out] in E. rewrite !call_unit_eq in E. destruct (run_sop U (At stg (OSet st c (CtorOk Moved))) rs2) as [rs3 o3] eqn:E3. injection E as <- <-.
    assert (below_wrap (2 * S (S (S n)))) as Hb3 by (unfold below_wrap in *; lia).
    assert (permitted U t (OSet st c (CtorOk Moved))) as Hp3 by (split; [done|]; done).
    set (s2 := with_world s _) in *.
    assert (<[i:=s2]> ss !! stg = Some t) as Ht2 by (by rewrite list_lookup_insert_ne).
    destruct (at_step _ _ _ _ _ _ _ _ Hr2 Hb3 Ht2 Hp3 E3) as [(t3 & Hn3 & Hr3)|[-> ?]]; [|by right]. left.
    cbn in Hn3. rewrite Hst in Hn3. destruct Hn3 as [[-> ->]|(_ & Hn3 & _)]; [|by rewrite lookup_singleton in Hn3]. cbn [omap_out].
    pose proof (lookup_lt_Some _ _ _ Hs) as Li. pose proof (lookup_lt_Some _ _ _ Ht) as Lt.
    eexists (S (S (S n))), _, s2. split; [lia|]. split; [|split; [|split; [|by intros _]]].
    + eapply pinv_next; [done|exact Hr3| |done|done|..].
      * rewrite list_lookup_insert_ne by done. by apply list_lookup_insert.
      * intros g' _ _ Hv. subst s2. apply vacant_with; [|done]. intros Hg'. rewrite lookup_insert_ne; [done|]. intros ->. congruence.
      * intros j t' Hj Ht'. destruct (decide (j = stg)) as [->|Hjs].
        -- assert (t' = t) as -> by congruence. eexists. rewrite list_lookup_insert by (by rewrite insert_length). split; [done|]. split; [done|].
           intros st' Hst'. cbn. rewrite lookup_insert_ne; [done|]. intros ->. by apply Hst'.
        -- exists t'. rewrite !list_lookup_insert_ne by done. done.
    + cbn. rewrite Hw. left. done.
    + split.
      * intros j Hj1 Hj2. by rewrite !list_lookup_insert_ne.
      * eexists t, _. rewrite list_lookup_insert by (by rewrite insert_length). split; [done|]. split; [done|]. cbn.
        rewrite map_size_insert, Hst. cbn. unfold id. lia.
  - destruct Hq as (-> & -> & Hce). destruct (run_sop U _ rs) as [rs1 o1] eqn:E1. injection E as <- <-.
    destruct (at_step _ _ _ _ _ (ORemove h c) _ _ Hr Hb1 Hs Hce E1) as [(s' & Hn & Hr')|[-> ?]]; [|by right]. left.
    exists (S n), (<[i := s']> ss), s'. split; [lia|]. cbn in Hn |- *. destruct (sr_world s !! h) as [m|] eqn:Hw.
    + destruct Hn as [[-> ->]|(-> & Hc & Hrf & ->)]; (split; [|split; [|split; [by eapply restaged_dst|by intros ?]]]).
      * eapply pinv_dst; try done. intros g' _ _ Hv. apply vacant_with; [|done]. intros ?. rewrite lookup_insert_ne; [done|]. intros ->. congruence.
      * by left.
      * eapply pinv_dst; done.
      * by right.
    + destruct Hn as [Hn ->]. split; [|split; [|split; [by eapply restaged_dst|by intros _]]]; [eapply pinv_dst; done|]. destruct Hn as (e & -> & Hn). split; [|done].
      eapply direct_missing; [exists e; split; [reflexivity|exact Hn]|done].
  - subst h'. destruct (run_sop U _ rs) as [rs1 o1] eqn:E1. injection E as <- <-.
    destruct (at_step _ _ _ _ _ (ODestroy h) _ _ Hr Hb1 Hs Hp E1) as [(s' & Hn & Hr')|[-> ?]]; [|by right]. left.
    exists (S n), (<[i := s']> ss), s'. split; [lia|]. cbn in Hn |- *. destruct (sr_world s !! h) as [m|] eqn:Hw.
    + destruct Hn as [-> ->]; (split; [|split; [|split; [by eapply restaged_dst|by intros ?]]]).
      * eapply pinv_dst; try done. intros g' _ _ Hv. apply vacant_kill; [eauto|done].
      * done.
    + destruct Hn as [Hn ->]. split; [|split; [|split; [by eapply restaged_dst|by intros _]]]; [eapply pinv_dst; done|]. destruct Hn as (e & -> & Hn). split; [|done].
      eapply direct_missing; [exists e; split; [reflexivity|exact Hn]|done].
Qed.

(** * Counting staged entities *)
Definition sz (ss : list sreg) (j : nat) : nat := default 0 ((size ∘ sr_world) <$> ss !! j).
Definition is_create (c : command) : bool := match c with CmdCreate _ _ => true | _ => false end.
Definition cc (j : nat) (F : list (nat * command)) : nat := length (filter (λ f, f.1 = j ∧ is_create f.2 = true) F).
Lemma cc_cons j f F : cc j (f :: F) = cc j F + (if decide (f.1 = j) then if is_create f.2 then 1 else 0 else 0).
Proof.
  unfold cc. rewrite filter_cons. destruct (decide (f.1 = j ∧ is_create f.2 = true)) as [[H1 H2]|H]; destruct (decide (f.1 = j)); cbn; try done.
  - rewrite H2. lia.
  - destruct (is_create f.2); [exfalso; tauto|lia].
Qed.
Lemma cc_app j F G : cc j (F ++ G) = cc j F + cc j G.
Proof. unfold cc. by rewrite filter_app, app_length. Qed.

Lemma restaged_cc i stg c k g o w w' ss ss' F t : restaged' i stg k o ss ss' → qrel t c k g → direct U w k g o w' →
  ∀ j, j ≠ i → sz ss j + cc j F = sz ss' j + cc j ((stg, c) :: F).
Proof.
  intros [H1 (t1 & t2 & Ht1 & Ht2 & H2)] Hq Hd j Hj. rewrite cc_cons. cbn [fst snd]. unfold sz. destruct (decide (stg = j)) as [<-|Hne].
  - rewrite Ht1, Ht2. cbn. destruct c, k; cbn in Hq |- *; try done; try lia. destruct Hd as [-> _]. lia.
  - rewrite H1 by done. lia.
Qed.

Lemma pinv_step n i I J rs ss s stg c F k g K rs' o : pinv n i I J rs ss s ((stg, c) :: F) ((k, g) :: K) → below_wrap (2 * (n + 3)) →
  exec_cmd U stg i c rs = (rs', o) →
  (∃ n' ss' s', n' ≤ n + 3 ∧ pinv n' i I J rs' ss' s' F K ∧ direct U (sr_world s) k g o (sr_world s') ∧
     (∀ j, j ≠ i → sz ss j + cc j F = sz ss' j + cc j ((stg, c) :: F)) ∧ (o = Ok () → sr_failed s' = sr_failed s)) ∨ (o = UB ∧ stuck U rs').
Proof.
  intros H Hbw E. destruct (exec_step _ _ _ _ _ _ _ _ _ _ _ _ _ _ _ H Hbw E) as [(n' & ss' & s' & Hn & Hp & Hd & Hst & Hfl)|?]; [left|by right].
  exists n', ss', s'. split; [done|]. split; [done|]. split; [done|]. split; [|done].
  pose proof (pv_fit _ _ _ _ _ _ _ _ _ H) as Hf. apply Forall2_cons in Hf as [(_ & (t & _ & _ & Hq)) _]. by eapply restaged_cc.
Qed.

Lemma directs_app w l1 w1 l2 rest o w' : directs U w l1 [] (Ok ()) w1 → directs U w1 l2 rest o w' → directs U w (l1 ++ l2) rest o w'.
Proof.
  intros H. remember (Ok ()) as o1 eqn:Eo. remember [] as r1 eqn:Er. induction H; intros H2; try done.
  cbn. eapply DirectsOk; [done|]. by apply IHdirects.
Qed.
Lemma directs_throw w l1 l2 rest e w' : directs U w l1 rest (Throw e) w' → directs U w (l1 ++ l2) (rest ++ l2) (Throw e) w'.
Proof.
  intros H. remember (Throw e) as o1 eqn:Eo. induction H; try done.
  - cbn. eapply DirectsOk; [done|]. by apply IHdirects.
  - injection Eo as ->. by constructor.
Qed.

Lemma play_spec stg i I J F K q : ∀ n rs ss s Kq rs' q' o, length q = length Kq → pinv n i I J rs ss s ((pair stg <$> q) ++ F) (Kq ++ K) →
  below_wrap (2 * (n + 3 * length q)) → play U stg i q rs = (rs', q', o) →
  (∃ n' ss' s' Kr, n' + 3 * length q' ≤ n + 3 * length q ∧ length q' = length Kr ∧ pinv n' i I J rs' ss' s' ((pair stg <$> q') ++ F) (Kr ++ K) ∧
     directs U (sr_world s) Kq Kr o (sr_world s') ∧ (o = Ok () → q' = []) ∧
     (∀ j, j ≠ i → sz ss j + cc j ((pair stg <$> q') ++ F) = sz ss' j + cc j ((pair stg <$> q) ++ F)) ∧ (o = Ok () → sr_failed s' = sr_failed s)) ∨ (o = UB ∧ stuck U rs').
Proof.
  induction q as [|c q IH]; intros n rs ss s Kq rs' q' o Hl H Hbw E; (destruct Kq as [|[k g] Kq]; [|]; try done).
  - cbn in E. injection E as <- <- <-. left. exists n, ss, s, []. split; [lia|]. split; [done|]. split; [done|]. split; [constructor|]. done.
  - cbn [play] in E. cbn [fmap list_fmap app length] in H, Hbw. destruct (exec_cmd U stg i c rs) as [rs1 o1] eqn:E1. cbn in Hl.
    destruct (pinv_step _ _ _ _ _ _ _ _ _ _ _ _ _ _ _ H ltac:(unfold below_wrap in *; lia) E1) as [(n1 & ss1 & s1 & Hn1 & H1 & Hd & Hc & Hf1)|[-> ?]].
    2:{ injection E as <- <- <-. by right. }
    destruct o1 as [[]|e|].
    + destruct (IH n1 rs1 ss1 s1 Kq rs' q' o ltac:(lia) H1 ltac:(unfold below_wrap in *; lia) E) as [(n2 & ss2 & s2 & Kr & Hn2 & Hl2 & H2 & Hd2 & Hq2 & Hc2 & Hf2)|?]; [left|by right].
      exists n2, ss2, s2, Kr. split; [cbn; lia|]. split; [done|]. split; [done|]. split; [by eapply DirectsOk|]. split; [done|].
      split; [|intros Ho; by rewrite Hf2, Hf1]. intros j Hj. specialize (Hc j Hj). specialize (Hc2 j Hj). cbn [fmap list_fmap app]. lia.
    + injection E as <- <- <-. left. exists n1, ss1, s1, Kq. split; [cbn; lia|]. split; [lia|]. split; [done|]. split; [by constructor|]. done.
    + exfalso. clear -Hd. destruct k; cbn in Hd; try (destruct (sr_world s !! h)); naive_solver (unfold absent in *; naive_solver).
Qed.

Definition flatF (bs : list buffer) : list (nat * command) := concat ((λ b, pair (cb_staging b) <$> cb_queue b) <$> bs).

Lemma flatF_cons b bs : flatF (b :: bs) = (pair (cb_staging b) <$> cb_queue b) ++ flatF bs.
Proof. done. Qed.

Lemma play_all_spec i I J bs : ∀ n rs ss s Ks rs' bs' o, Forall (λ b, cb_live b = true) bs → Forall2 (λ b kb, length (cb_queue b) = length kb) bs Ks →
  pinv n i I J rs ss s (flatF bs) (concat Ks) → below_wrap (2 * (n + 3 * length (flatF bs))) → play_all U i bs rs = (rs', bs', o) →
  (∃ n' ss' s' Ks', n' + 3 * length (flatF bs') ≤ n + 3 * length (flatF bs) ∧ Forall2 (λ b kb, length (cb_queue b) = length kb) bs' Ks' ∧
     pinv n' i I J rs' ss' s' (flatF bs') (concat Ks') ∧ drained U (sr_world s) Ks Ks' o (sr_world s') ∧
     cb_staging <$> bs' = cb_staging <$> bs ∧ Forall (λ b, cb_live b = true) bs' ∧
     (∀ j, j ≠ i → sz ss j + cc j (flatF bs') = sz ss' j + cc j (flatF bs)) ∧ (o = Ok () → sr_failed s' = sr_failed s)) ∨ (o = UB ∧ stuck U rs').
Proof.
  induction bs as [|b bs IH]; intros n rs ss s Ks rs' bs' o Hv Hl H Hbw E.
  - apply Forall2_nil_inv_l in Hl as ->. cbn in E. injection E as <- <- <-. left. exists n, ss, s, []. split; [lia|]. split; [done|]. split; [done|].
    split; [constructor|]. done.
  - apply Forall2_cons_inv_l in Hl as (kb & Ks0 & Hlb & Hl & ->). apply Forall_cons in Hv as [Hvb Hv]. cbn [play_all] in E. rewrite Hvb in E.
    rewrite flatF_cons in H, Hbw. cbn [concat] in H. rewrite !(flatF_cons b bs). rewrite app_length, fmap_length in Hbw.
    destruct (play U (cb_staging b) i (cb_queue b) rs) as [[rs1 q1] o1] eqn:E1.
    destruct (play_spec _ _ _ _ _ _ _ _ _ _ _ _ _ _ _ Hlb H ltac:(unfold below_wrap in *; lia) E1) as [(n1 & ss1 & s1 & Kr & Hn1 & Hl1 & H1 & Hd1 & Hq1 & Hc1 & Hf1)|[-> ?]].
    2:{ injection E as <- <- <-. by right. }
    destruct o1 as [[]|e|].
    + rewrite (Hq1 eq_refl) in *. destruct Kr; [|done]. cbn in H1.
      destruct (play_all U i bs rs1) as [[rs2 bs2] o2] eqn:E2. injection E as <- <- <-. cbn [length] in Hn1.
      destruct (IH _ _ _ _ _ _ _ _ Hv Hl H1 ltac:(unfold below_wrap in *; lia) E2) as [(n2 & ss2 & s2 & Ks2 & Hn2 & Hl2 & H2 & Hd2 & Hs2 & Hv2 & Hc2 & Hf2)|?]; [left|by right].
      exists n2, ss2, s2, ([] :: Ks2). split; [rewrite flatF_cons, !app_length, !fmap_length; cbn; lia|]. split; [by constructor|]. split; [done|].
      split; [by eapply DrainedOk|]. split; [cbn; by f_equal|]. split; [by constructor|].
      split; [|intros Ho; by rewrite Hf2, Hf1]. intros j Hj. specialize (Hc1 j Hj). specialize (Hc2 j Hj). cbn [fmap list_fmap app] in Hc1. rewrite flatF_cons. cbn [cb_queue fmap list_fmap app]. lia.
    + injection E as <- <- <-. left. exists n1, ss1, s1, (Kr :: Ks0). split; [rewrite flatF_cons, !app_length, !fmap_length; cbn; lia|].
      split; [by constructor|]. split; [done|]. split; [by constructor|]. split; [done|]. split; [by constructor|]. done.
    + exfalso. remember UB as ou eqn:Eu in Hd1. clear -Hd1 Eu. induction Hd1; try done.
Qed.

(** * Histories *)
Lemma staged_in t c k g st : qrel t c k g → staged c = Some st → is_Some (sr_world t !! st).
Proof. destruct c, k; cbn; try done; intros Hq [= <-]; naive_solver. Qed.

Lemma fitsq_mono i ss ss' f x :
  (∀ j t, j ≠ i → ss !! j = Some t → ∃ t', ss' !! j = Some t' ∧ sr_pending t' = sr_pending t ∧ ∀ st, is_Some (sr_world t !! st) → sr_world t' !! st = sr_world t !! st) →
  fitsq i ss f x → fitsq i ss' f x.
Proof.
  intros Ht (H1 & (t & Htj & Hp & Hq)). split; [done|].
  destruct (Ht _ _ H1 Htj) as (t' & Ht' & Hp' & Hw'). exists t'. split; [done|]. split; [congruence|].
  eapply qrel_same; [|done]. intros st Hst. apply Hw'. by eapply staged_in.
Qed.

Definition nc (Q : list (crec * handle)) : nat := length (filter (λ x, is_kcreate x.1 = true) Q).

Record cinv (n i : nat) (cs : cstate) (ss : list sreg) (s : sreg) (a : aprog) : Prop := {
  ci_reach : reach U n (cs_regs cs) ss;
  ci_rec : ss !! i = Some s;
  ci_world : sr_world s = ap_world a;
  ci_known : ap_known a ⊆ sr_issued s;
  ci_lenq : length (ap_queues a) = length (cs_bufs cs);
  ci_lenl : length (ap_left a) = length (cs_bufs cs);
  ci_bufs : ∀ (b : nat) x, cs_bufs cs !! b = Some x → cb_live x = true ∧ cb_staging x ≠ i ∧
    ∃ t Q m, ss !! cb_staging x = Some t ∧ sr_pending t = [] ∧ ap_queues a !! b = Some Q ∧ ap_left a !! b = Some m ∧
    Forall2 (λ c, fitsq i ss (cb_staging x, c)) (cb_queue x) Q ∧ NoDup (omap staged (cb_queue x)) ∧
    size (sr_world t) = m + nc Q;
  ci_nd : NoDup (cb_staging <$> cs_bufs cs);
  ci_made : NoDup (made (concat (ap_queues a)));
  ci_vac : ∀ g, g ∈ made (concat (ap_queues a)) → g ∈ sr_issued s ∧ g ∉ sr_dead s ∧ sr_world s !! g = None }.

Lemma concat_alter (x : crec * handle) : ∀ qs (b : nat), b < length qs → concat (alter (.++ [x]) b qs) ≡ₚ x :: concat qs.
Proof.
  induction qs as [|q qs IH]; intros b Hb; [cbn in Hb; lia|]. destruct b as [|b]; cbn in *.
  - rewrite <- app_assoc. cbn. by rewrite Permutation_middle.
  - change (list_alter _ b qs) with (alter (.++ [x]) b qs). rewrite IH by lia. by rewrite Permutation_middle.
Qed.
Lemma made_perm K K' : K ≡ₚ K' → made K ≡ₚ made K'.
Proof. intros H. unfold made. by rewrite H. Qed.
Lemma nc_snoc Q k g : nc (Q ++ [(k, g)]) = nc Q + (if is_kcreate k then 1 else 0).
Proof. unfold nc. rewrite filter_app, app_length. f_equal. rewrite filter_cons. cbn. by destruct (is_kcreate k). Qed.

Lemma ci_push n i cs ss s a (b : nat) x c k g n' rs' ss' s' :
  cinv n i cs ss s a → cs_bufs cs !! b = Some x →
  reach U n' rs' ss' → ss' !! i = Some s' → sr_world s' = sr_world s → sr_dead s' = sr_dead s →
  (if makes k then sr_issued s' = g :: sr_issued s ∧ g ∉ sr_issued s else sr_issued s' = sr_issued s) →
  (∀ j t, j ≠ i → ss !! j = Some t → ∃ t', ss' !! j = Some t' ∧ sr_pending t' = sr_pending t ∧
     (∀ st, is_Some (sr_world t !! st) → sr_world t' !! st = sr_world t !! st) ∧
     size (sr_world t') = size (sr_world t) + (if decide (cb_staging x = j) then if is_kcreate k || is_kset k then 1 else 0 else 0)) →
  (∀ st t, staged c = Some st → ss !! cb_staging x = Some t → sr_world t !! st = None) →
  fitsq i ss' (cb_staging x, c) (k, g) →
  cinv n' i (CState rs' (<[b := Buffer (cb_staging x) (cb_queue x ++ [c]) true]> (cs_bufs cs))) ss' s'
    (AProg (ap_world a) (if makes k then g :: ap_known a else ap_known a) (alter (.++ [(k, g)]) b (ap_queues a)) (if is_kset k then alter S b (ap_left a) else ap_left a)).
Proof.
  intros H Hx Hr Hs Hw Hd Hk Ht Hst Hf. pose proof (lookup_lt_Some _ _ _ Hx) as Lb.
  assert (sr_issued s ⊆ sr_issued s') as Hsub. { destruct (makes k); [destruct Hk as [-> _]; by intros ??; right|by rewrite Hk]. }
  assert (∀ (b' : nat) y, <[b := Buffer (cb_staging x) (cb_queue x ++ [c]) true]> (cs_bufs cs) !! b' = Some y →
    b' = b ∧ y = Buffer (cb_staging x) (cb_queue x ++ [c]) true ∨ b' ≠ b ∧ cs_bufs cs !! b' = Some y) as Hlk.
  { intros b' y Hy. destruct (decide (b' = b)) as [->|Hne]; [left|right].
    - rewrite list_lookup_insert in Hy by done. by injection Hy as <-.
    - by rewrite list_lookup_insert_ne in Hy. }
  destruct H as [H1 H2 H3 H4 H5 H6 H7 H8 H9 H10].
  assert (made (concat (alter (.++ [(k, g)]) b (ap_queues a))) ≡ₚ (if makes k then [g] else []) ++ made (concat (ap_queues a))) as Hmp.
  { rewrite (made_perm _ _ (concat_alter _ _ _ (eq_ind_r (lt b) Lb H5))), made_cons. by destruct (makes k). }
  split; cbn [cs_regs cs_bufs ap_world ap_known ap_queues ap_left].
  - done.
  - done.
  - congruence.
  - destruct (makes k); [|by intros h Hh; apply Hsub, H4]. intros h [->|Hh]%elem_of_cons; [destruct Hk as [-> _]; by left|by apply Hsub, H4].
  - by rewrite alter_length, insert_length.
  - rewrite insert_length. destruct (is_kset k); [by rewrite alter_length|done].
  - intros b' y Hy. destruct (Hlk _ _ Hy) as [[-> ->]|[Hne Hy']]; cbn [cb_staging cb_queue cb_live].
    + destruct (H7 _ _ Hx) as (B0 & B1 & t & Q & m & Bt & Bp & BQ & Bm & B3 & B4 & B5). split; [done|]. split; [done|].
      destruct (Ht _ _ B1 Bt) as (t' & Bt' & Bp' & Bw' & Bs').
      exists t', (Q ++ [(k, g)]), (if is_kset k then S m else m). split; [done|]. split; [congruence|]. split; [by rewrite list_lookup_alter, BQ|].
      split; [destruct (is_kset k); [by rewrite list_lookup_alter, Bm|done]|]. split; [|split].
      * apply Forall2_app; [|by constructor]. eapply Forall2_impl; [done|]. intros ?? Hq. eapply (fitsq_mono _ ss); [|done].
        intros j t0 Hj Ht0. destruct (Ht _ _ Hj Ht0) as (? & ? & ? & ? & _). eauto.
      * rewrite omap_app. apply NoDup_app. split; [done|]. split.
        -- intros st Hin Hin2. apply elem_of_list_omap in Hin2 as (c' & ->%elem_of_list_singleton & Hc').
           apply elem_of_list_omap in Hin as (c2 & Hc2 & Hst2). apply elem_of_list_lookup in Hc2 as [idx Hidx].
           destruct (Forall2_lookup_l _ _ _ _ _ B3 Hidx) as (y & _ & (_ & (t2 & Ht2 & _ & Hq2))). cbn in Ht2, Hq2. rewrite Bt in Ht2. injection Ht2 as <-.
           destruct (staged_in _ _ _ _ _ Hq2 Hst2) as [m' Hm]. by rewrite (Hst _ _ Hc' Bt) in Hm.
        -- cbn. destruct (staged c); cbn; [apply NoDup_singleton|constructor].
      * rewrite Bs', decide_True, B5, nc_snoc by done. destruct k; cbn; lia.
    + destruct (H7 _ _ Hy') as (B0 & B1 & t & Q & m & Bt & Bp & BQ & Bm & B3 & B4 & B5). split; [done|]. split; [done|].
      destruct (Ht _ _ B1 Bt) as (t' & Bt' & Bp' & Bw' & Bs').
      assert (cb_staging x ≠ cb_staging y) as Hxy.
      { intros Es. apply Hne. eapply (NoDup_lookup _ _ _ (cb_staging y) H8); rewrite list_lookup_fmap; [by rewrite Hy'|]. rewrite Hx. cbn. by f_equal. }
      exists t', Q, m. split; [done|]. split; [congruence|]. split; [by rewrite list_lookup_alter_ne|].
      split; [destruct (is_kset k); [by rewrite list_lookup_alter_ne|done]|]. split; [|split].
      * eapply Forall2_impl; [done|]. intros ?? Hq. eapply (fitsq_mono _ ss); [|done].
        intros j t0 Hj Ht0. destruct (Ht _ _ Hj Ht0) as (? & ? & ? & ? & _). eauto.
      * done.
      * rewrite Bs', decide_False by done. lia.
  - rewrite list_fmap_insert. cbn. rewrite list_insert_id; [done|]. by rewrite list_lookup_fmap, Hx.
  - rewrite Hmp. destruct (makes k) eqn:Ek; [|done]. apply NoDup_cons. split; [|done]. intros Hg'. destruct Hk as [_ Hk]. by apply Hk, (H10 g).
  - intros g'. rewrite Hmp. rewrite elem_of_app. intros [Hg'|Hg'].
    + destruct (makes k) eqn:Ek; [|by apply elem_of_nil in Hg']. apply elem_of_list_singleton in Hg' as ->. destruct Hk as [Hk1 Hk].
      destruct (reached_swf U HU _ _ _ (reached_at _ _ _ _ _ H1 H2)) as (W1 & W2 & _). split; [rewrite Hk1; by left|]. split; [rewrite Hd; intros ?; by apply Hk, W2|].
      rewrite Hw. destruct (sr_world s !! g) eqn:Eg; [|done]. exfalso. apply Hk, W1. eauto.
    + destruct (H10 _ Hg') as (V1 & V2 & V3). rewrite Hd, Hw. auto.
Qed.

(** Nothing the abstraction mentions changed. *)
Lemma ci_keep n i cs ss s a n' rs' ss' s' : cinv n i cs ss s a → reach U n' rs' ss' → ss' !! i = Some s' → sr_world s' = sr_world s →
  sr_dead s' = sr_dead s → sr_issued s ⊆ sr_issued s' →
  (∀ j t, j ≠ i → ss !! j = Some t → ∃ t', ss' !! j = Some t' ∧ sr_pending t' = sr_pending t ∧ sr_world t' = sr_world t) →
  cinv n' i (CState rs' (cs_bufs cs)) ss' s' a.
Proof.
  intros [H1 H2 H3 H4 H5 H6 H7 H8 H9 H10] Hr Hs Hw Hd Hi Ht. split; cbn [cs_regs cs_bufs]; try done.
  - congruence.
  - by etrans.
  - intros b x Hx. destruct (H7 _ _ Hx) as (B0 & B1 & t & Q & m & Bt & Bp & BQ & Bm & B3 & B4 & B5). split; [done|]. split; [done|].
    destruct (Ht _ _ B1 Bt) as (t' & Bt' & Bp' & Bw'). exists t', Q, m. rewrite Bw'. split; [done|]. split; [congruence|]. split; [done|]. split; [done|].
    split; [|done]. eapply Forall2_impl; [done|]. intros ?? Hq. eapply (fitsq_mono _ ss); [|done].
    intros j t0 Hj Ht0. destruct (Ht _ _ Hj Ht0) as (t1 & ? & ? & Hw1). exists t1. split; [done|]. split; [done|]. intros. by rewrite Hw1.
  - intros g Hg. destruct (H10 _ Hg) as (V1 & V2 & V3). rewrite Hd, Hw. auto.
Qed.

Lemma reserve_call n i rs ss s rs1 o : reach U n rs ss → below_wrap (2 * S n) → ss !! i = Some s → call_handle U (At i OReserve) rs = (rs1, o) →
  ∃ g, o = Ok g ∧ g ∉ sr_issued s ∧
    reach U (S n) rs1 (<[i := SReg (sr_world s) (g :: sr_issued s) (sr_dead s) (g :: sr_pending s) (sr_failed s) (sr_leaky s)]> ss).
Proof.
  intros Hr Hbw Hs E. unfold call_handle, bind, call in E. destruct (run_sop U (At i OReserve) rs) as [rs2 o2] eqn:E2.
  assert (spermitted U ss (At i OReserve)) as Hsp by (by exists s).
  destruct (reach_step U HU _ _ _ _ _ _ Hr Hbw Hsp E2) as [(ss' & (s0 & s' & Hs0 & (g & Hg & -> & ->) & ->) & Hr' & _)|[_ Hz]].
  - rewrite Hs in Hs0. injection Hs0 as <-. injection E as <- <-. eauto.
  - by destruct Hz as (? & ? & _ & _ & []).
Qed.

Lemma create_call n j rs ss t args rs1 o : reach U n rs ss → below_wrap (2 * S n) → ss !! j = Some t → sr_pending t = [] →
  NoDup args.*1 → u_ent U ∉ args.*1 → call_handle U (At j (OCreate args)) rs = (rs1, o) →
  (∃ st, o = Ok st ∧ sr_world t !! st = None ∧ reach U (S n) rs1 (<[j := with_world (issue t st) (<[st := list_to_map args]> (sr_world t))]> ss)) ∨
  (o = Throw InsufficientChunkSize ∧ get_max_size (u_type U <$> args.*1) = None ∧ reach U (S n) rs1 (<[j := fail t]> ss)).
Proof.
  intros Hr Hbw Ht Hp Hnd He E. unfold call_handle, bind, call in E. destruct (run_sop U (At j (OCreate args)) rs) as [rs2 o2] eqn:E2.
  assert (spermitted U ss (At j (OCreate args))) as Hsp by (by exists t).
  destruct (reach_step U HU _ _ _ _ _ _ Hr Hbw Hsp E2) as [(ss' & (t0 & t' & Ht0 & Hn & ->) & Hr' & _)|[_ Hz]].
  2:{ by destruct Hz as (? & ? & _ & _ & []). }
  rewrite Ht in Ht0. injection Ht0 as <-. destruct Hn as [(h & Hh & -> & ->)|(-> & Hg & ->)]; injection E as <- <-; [left|by right].
  exists h. split; [done|]. split; [|done].
  destruct (reached_swf U HU _ _ _ (reached_at _ _ _ _ _ Hr Ht)) as (W1 & _). destruct (sr_world t !! h) eqn:Eh; [|done]. exfalso. apply Hh, W1. eauto.
Qed.

Lemma record1_step n i cs ss s a b k cs' o : cinv n i cs ss s a → below_wrap (2 * (n + 2)) →
  cpermitted U a (CRec b k) → record1 U i b k cs = (cs', o) →
  ∃ n' ss' s' a', n' ≤ n + 2 ∧ cnext U a (CRec b k) (omap_out Some o) a' ∧ cinv n' i cs' ss' s' a' ∧ sr_failed s' = sr_failed s.
Proof.
  intros H Hbw [Hlb Hu] E. pose proof (ci_reach _ _ _ _ _ _ H) as Hr. pose proof (ci_rec _ _ _ _ _ _ H) as Hs. destruct cs as [rs bs]. cbn [cs_regs] in Hr.
  pose proof (lookup_lt_Some _ _ _ Hs) as Li.
  rewrite (ci_lenq _ _ _ _ _ _ H) in Hlb. destruct (lookup_lt_is_Some_2 _ _ Hlb) as [x Hx]. cbn [cs_bufs] in Hx.
  destruct (ci_bufs _ _ _ _ _ _ H b x Hx) as (Hlv & Hti & t & _ & _ & Ht & Htp & _).
  assert (∀ rs', cb_at (CState rs' bs) b = Some x) as Hat by (intros; unfold cb_at; cbn; by rewrite Hx, Hlv).
  assert (∀ h, h ∈ ap_known a → h ∈ sr_issued s) as Hkn by apply (ci_known _ _ _ _ _ _ H).
  assert (below_wrap (2 * S n)) as Hb1 by (unfold below_wrap in *; lia). assert (below_wrap (2 * S (S n))) as Hb2 by (unfold below_wrap in *; lia).
  pose proof (lookup_lt_Some _ _ _ Ht) as Lt.
  destruct k as [args|h|h c v|h c|h]; cbn in Hu, E; unfold cw_create, ce_clone, ce_set, ce_remove, ce_destroy, cb_stage, cb_push, bind, on_regs_of, ret in E;
    cbn [cs_regs cs_bufs] in E.
  - destruct (call_handle U (At i OReserve) rs) as [rs1 o1] eqn:E1. destruct (reserve_call _ _ _ _ _ _ _ Hr Hb1 Hs E1) as (g & -> & Hg & Hr1).
    cbn in E. rewrite Hat in E. destruct (call_handle U (At (cb_staging x) (OCreate args)) rs1) as [rs2 o2] eqn:E2.
    set (s1 := SReg _ _ _ _ _ _) in Hr1.
    assert (<[i := s1]> ss !! cb_staging x = Some t) as Ht1 by (by rewrite list_lookup_insert_ne).
    destruct (create_call _ _ _ _ _ _ _ _ Hr1 Hb2 Ht1 Htp (proj1 Hu) (proj2 Hu) E2) as [(st & -> & Hst & Hr2)|(-> & Hgm & Hr2)]; cbn in E; rewrite ?Hat in E; injection E as <- <-.
    2:{ eexists (S (S n)), _, s1, a. split; [lia|]. split; [right; exists args.*1; done|]. split; [|done]. eapply (ci_keep _ _ _ _ _ _ _ _ _ _ H Hr2); try done.
        - rewrite list_lookup_insert_ne by done. by apply list_lookup_insert.
        - by intros ??; right.
        - intros j t' Hj Ht'. destruct (decide (j = cb_staging x)) as [->|Hne].
          + assert (t' = t) as -> by congruence. eexists. rewrite list_lookup_insert by (by rewrite insert_length). split; [done|]. done.
          + exists t'. rewrite !list_lookup_insert_ne by done. done. }
    eexists (S (S n)), _, s1, _. split; [lia|]. split.
    { left. exists g. split; [done|]. split; [|reflexivity]. cbn. intros ?. by apply Hg, Hkn. }
    split; [|done]. eapply (ci_push _ _ _ _ _ _ _ _ _ (KCreate args) _ _ _ _ _ H Hx Hr2); cbn [makes sr_world sr_dead sr_issued s1 is_kcreate is_kset orb]; try done.
    + rewrite list_lookup_insert_ne by done. by apply list_lookup_insert.
    + intros j t' Hj Ht'. destruct (decide (j = cb_staging x)) as [->|Hne].
      * assert (t' = t) as -> by congruence. eexists. rewrite list_lookup_insert by (by rewrite insert_length). split; [done|]. split; [done|]. split.
        -- intros st' [m Hm]. cbn. rewrite lookup_insert_ne; [done|]. intros ->. congruence.
        -- rewrite decide_True by done. cbn. rewrite map_size_insert, Hst. cbn. lia.
      * exists t'. rewrite !list_lookup_insert_ne by done. rewrite decide_False by done. split; [done|]. split; [done|]. split; [done|]. lia.
    + cbn. intros st' t' [= <-] Ht'. congruence.
    + split; [done|]. eexists. rewrite list_lookup_insert by (by rewrite insert_length). split; [done|]. split; [done|]. cbn.
      split; [done|]. by rewrite lookup_insert.
  - destruct (call_handle U (At i OReserve) rs) as [rs1 o1] eqn:E1. destruct (reserve_call _ _ _ _ _ _ _ Hr Hb1 Hs E1) as (g & -> & Hg & Hr1).
    cbn in E. rewrite Hat in E. injection E as <- <-. set (s1 := SReg _ _ _ _ _ _) in Hr1.
    eexists (S n), _, s1, _. split; [lia|]. split.
    { left. exists g. split; [done|]. split; [|reflexivity]. cbn. intros ?. by apply Hg, Hkn. }
    split; [|done]. eapply (ci_push _ _ _ _ _ _ _ _ _ (KClone h) _ _ _ _ _ H Hx Hr1); cbn [makes sr_world sr_dead sr_issued s1 is_kcreate is_kset orb]; try done.
    + by apply list_lookup_insert.
    + intros j t' Hj Ht'. exists t'. rewrite list_lookup_insert_ne by done. split; [done|]. split; [done|]. split; [done|]. destruct (decide _); lia.
    + split; [done|]. exists t. by rewrite list_lookup_insert_ne.
  - rewrite Hat in E. destruct (call_handle U (At (cb_staging x) (OCreate [(c, v)])) rs) as [rs2 o2] eqn:E2.
    destruct (create_call _ _ _ _ _ [(c, v)] _ _ Hr Hb1 Ht Htp (NoDup_singleton _) ltac:(by intros Hin%elem_of_list_singleton; apply Hu) E2)
      as [(st & -> & Hst & Hr2)|(-> & Hgm & Hr2)]; cbn in E; rewrite ?Hat in E; injection E as <- <-.
    2:{ eexists (S n), _, s, a. split; [lia|]. split; [right; exists [c]; done|]. split; [|done]. eapply (ci_keep _ _ _ _ _ _ _ _ _ _ H Hr2); try done.
        - by rewrite list_lookup_insert_ne.
        - intros j t' Hj Ht'. destruct (decide (j = cb_staging x)) as [->|Hne].
          + assert (t' = t) as -> by congruence. eexists. rewrite list_lookup_insert by done. split; [done|]. done.
          + exists t'. rewrite !list_lookup_insert_ne by done. done. }
    eexists (S n), _, s, _. split; [lia|]. split.
    { left. exists h. split; [done|]. split; [|reflexivity]. done. }
    split; [|done]. eapply (ci_push _ _ _ _ _ _ _ _ _ (KSet h c v) _ _ _ _ _ H Hx Hr2); cbn [makes is_kcreate is_kset orb]; try done.
    + by rewrite list_lookup_insert_ne.
    + intros j t' Hj Ht'. destruct (decide (j = cb_staging x)) as [->|Hne].
      * assert (t' = t) as -> by congruence. eexists. rewrite list_lookup_insert by done. split; [done|]. split; [done|]. split.
        -- intros st' [m Hm]. cbn. rewrite lookup_insert_ne; [done|]. intros ->. congruence.
        -- rewrite decide_True by done. cbn. rewrite map_size_insert, Hst. cbn. lia.
      * exists t'. rewrite !list_lookup_insert_ne by done. rewrite decide_False by done. split; [done|]. split; [done|]. split; [done|]. lia.
    + cbn. intros st' t' [= <-] Ht'. congruence.
    + split; [done|]. eexists. rewrite list_lookup_insert by done. split; [done|]. split; [done|]. cbn.
      split; [done|]. split; [done|]. split; [done|]. by rewrite lookup_insert.
  - rewrite Hat in E. injection E as <- <-. eexists n, ss, s, _. split; [lia|]. split.
    { left. exists h. split; [done|]. split; [|reflexivity]. done. }
    split; [|done]. eapply (ci_push _ _ _ _ _ _ _ _ _ (KRemove h c) _ _ _ _ _ H Hx Hr); cbn [makes is_kcreate is_kset orb]; try done.
    + intros j t' Hj Ht'. exists t'. split; [done|]. split; [done|]. split; [done|]. destruct (decide _); lia.
    + split; [done|]. exists t. split; [done|]. split; [done|]. cbn. split; [done|]. split; [done|]. apply Hu.
  - rewrite Hat in E. injection E as <- <-. eexists n, ss, s, _. split; [lia|]. split.
    { left. exists h. split; [done|]. split; [|reflexivity]. done. }
    split; [|done]. eapply (ci_push _ _ _ _ _ _ _ _ _ (KDestroy h) _ _ _ _ _ H Hx Hr); cbn [makes is_kcreate is_kset orb]; try done.
    + intros j t' Hj Ht'. exists t'. split; [done|]. split; [done|]. split; [done|]. destruct (decide _); lia.
    + split; [done|]. by exists t.
Qed.

(** * Flushing *)
Lemma flat_fit i ss : ∀ bs (Ks : list (list (crec * handle))), length bs = length Ks →
  (∀ (b : nat) x K, bs !! b = Some x → Ks !! b = Some K → Forall2 (λ c, fitsq i ss (cb_staging x, c)) (cb_queue x) K) →
  Forall2 (fitsq i ss) (flatF bs) (concat Ks) ∧ Forall2 (λ b kb, length (cb_queue b) = length kb) bs Ks.
Proof.
  induction bs as [|x bs IH]; intros [|K Ks] Hl H; try done; [by split; constructor|]. destruct (IH Ks) as [I1 I2]; [by injection Hl|intros b; apply (H (S b))|].
  pose proof (H 0 x K eq_refl eq_refl) as H0. split.
  - rewrite flatF_cons. cbn. apply Forall2_app; [|done]. by apply Forall2_fmap_l.
  - constructor; [by eapply Forall2_length|done].
Qed.
Lemma flat_unfit i ss : ∀ bs (Ks : list (list (crec * handle))), Forall2 (λ b kb, length (cb_queue b) = length kb) bs Ks →
  Forall2 (fitsq i ss) (flatF bs) (concat Ks) → ∀ (b : nat) x, bs !! b = Some x →
  ∃ K, Ks !! b = Some K ∧ Forall2 (λ c, fitsq i ss (cb_staging x, c)) (cb_queue x) K.
Proof.
  intros bs Ks Hl. induction Hl as [|x K bs Ks Hx Hl IH]; intros H b y Hy; [done|]. rewrite flatF_cons in H. cbn in H.
  apply Forall2_app_inv in H as [H1 H2]; [|by rewrite fmap_length]. destruct b as [|b]; cbn in Hy |- *.
  - injection Hy as <-. exists K. split; [done|]. clear -H1. revert K H1. induction (cb_queue x); intros K H1; inversion H1; subst; constructor; auto.
  - by apply IH.
Qed.
Lemma flat_nodup bs : NoDup (cb_staging <$> bs) → (∀ (b : nat) x, bs !! b = Some x → NoDup (omap staged (cb_queue x))) → NoDup (stagings (flatF bs)).
Proof.
  induction bs as [|x bs IH]; intros Hnd H; [by constructor|]. rewrite flatF_cons. unfold stagings. rewrite omap_app.
  cbn in Hnd. apply NoDup_cons in Hnd as [Hx Hnd]. apply NoDup_app. split; [|split].
  - specialize (H 0 x eq_refl). clear -H. induction (cb_queue x) as [|c q IHq]; cbn in *; [constructor|]. destruct (staged c) as [st|]; cbn in *; [|by apply IHq].
    apply NoDup_cons in H as [H1 H2]. apply NoDup_cons. split; [|by apply IHq]. intros Hin. apply H1.
    apply elem_of_list_omap in Hin as ([j d] & Hin & Hd). apply elem_of_list_fmap in Hin as (d' & [= -> ->] & Hin). cbn in Hd.
    apply elem_of_list_omap. exists d'. split; [done|]. destruct (staged d'); cbn in Hd; [by injection Hd as ->|done].
  - intros [j st] Hin1 Hin2. apply elem_of_list_omap in Hin1 as ([j1 d1] & Hin1 & Hd1). apply elem_of_list_fmap in Hin1 as (d1' & [= -> ->] & _).
    cbn in Hd1. destruct (staged d1'); [|done]. injection Hd1 as <- ->.
    apply elem_of_list_omap in Hin2 as ([j2 d2] & Hin2 & Hd2). cbn in Hd2. destruct (staged d2); [|done]. injection Hd2 as -> ->.
    unfold flatF in Hin2. apply elem_of_list_In, in_concat in Hin2 as (q & Hq & Hin2). apply elem_of_list_In, elem_of_list_fmap in Hq as (y & -> & Hy).
    apply elem_of_list_In in Hin2. apply elem_of_list_fmap in Hin2 as (d' & Ed & _). injection Ed as Ed _. apply Hx. rewrite Ed. by apply elem_of_list_fmap_1.
  - apply IH; [done|]. intros b. apply (H (S b)).
Qed.
Lemma unflat_nodup bs : NoDup (stagings (flatF bs)) → ∀ (b : nat) x, bs !! b = Some x → NoDup (omap staged (cb_queue x)).
Proof.
  induction bs as [|y bs IH]; intros H b x Hx; [done|]. rewrite flatF_cons in H. unfold stagings in H. rewrite omap_app in H.
  apply NoDup_app in H as (H1 & _ & H2). destruct b as [|b]; [|by eapply IH]. injection Hx as ->. clear -H1.
  induction (cb_queue x) as [|c q IHq]; cbn in *; [constructor|]. destruct (staged c) as [st|] eqn:Es; cbn in *; [|by apply IHq].
  apply NoDup_cons in H1 as [H1 H2]. apply NoDup_cons. split; [|by apply IHq]. intros Hin. apply H1.
  apply elem_of_list_omap in Hin as (d & Hin & Hd). apply elem_of_list_omap. exists (cb_staging x, d). split; [by apply elem_of_list_fmap_1|]. cbn. by rewrite Hd.
Qed.

Lemma cc_other j bs : j ∉ cb_staging <$> bs → cc j (flatF bs) = 0.
Proof.
  induction bs as [|x bs IH]; intros Hj; [done|]. cbn in Hj. apply not_elem_of_cons in Hj as [Hj1 Hj2]. rewrite flatF_cons, cc_app, IH by done.
  clear -Hj1. induction (cb_queue x) as [|c q IHq]; [done|]. cbn [fmap list_fmap app]. rewrite <- Nat.add_0_r, cc_cons. cbn. rewrite decide_False by done. cbn in IHq. lia.
Qed.
Lemma cc_nc i ss stg q Q : Forall2 (λ c, fitsq i ss (stg, c)) q Q → cc stg (pair stg <$> q) = nc Q.
Proof.
  induction 1 as [|c [k g] q Q (_ & (t & _ & _ & Hq)) HQ IH]; [done|]. cbn [fmap list_fmap]. rewrite cc_cons. cbn [fst snd].
  rewrite decide_True by done. unfold nc in *. rewrite filter_cons. cbn in Hq. change (list_fmap _ _ (pair stg) q) with (pair stg <$> q). rewrite IH.
  destruct c, k; cbn in Hq; try done; cbn [is_create is_kcreate fst]; destruct (decide _); try done; cbn [length]; lia.
Qed.
Lemma cc_at i ss bs (b : nat) x Q : NoDup (cb_staging <$> bs) → bs !! b = Some x →
  Forall2 (λ c, fitsq i ss (cb_staging x, c)) (cb_queue x) Q → cc (cb_staging x) (flatF bs) = nc Q.
Proof.
  revert b. induction bs as [|y bs IH]; intros b Hnd Hx HQ; [done|]. cbn in Hnd. apply NoDup_cons in Hnd as [Hy Hnd]. rewrite flatF_cons, cc_app.
  destruct b as [|b]; cbn in Hx.
  - injection Hx as ->. rewrite (cc_other _ _ Hy). erewrite cc_nc by done. lia.
  - rewrite (IH _ Hnd Hx HQ). assert (cb_staging y ≠ cb_staging x) as Hne.
    { intros E. apply Hy. rewrite E. apply elem_of_list_fmap_1. by eapply elem_of_list_lookup_2. }
    clear -Hne. assert (cc (cb_staging x) (pair (cb_staging y) <$> cb_queue y) = 0) as ->; [|done].
    induction (cb_queue y) as [|c q IHq]; [done|]. cbn [fmap list_fmap]. rewrite cc_cons. cbn. rewrite decide_False by done. cbn in IHq. lia.
Qed.

Lemma drained_out w qs qs' o w' : drained U w qs qs' o w' → o ≠ UB.
Proof. induction 1; done. Qed.
Lemma sz_some (ss : list sreg) (j : nat) t : ss !! j = Some t → sz ss j = size (sr_world t).
Proof. intros H. unfold sz. by rewrite H. Qed.

Lemma flush_step n i cs ss s a cs' o : cinv n i cs ss s a → below_wrap (2 * (n + 1 + 3 * length (concat (ap_queues a)))) →
  flush U i cs = (cs', o) →
  (∃ n' ss' s' a', n' + 3 * length (concat (ap_queues a')) ≤ n + 1 + 3 * length (concat (ap_queues a)) ∧
     cnext U a CFlush (omap_out (λ _, None) o) a' ∧ cinv n' i cs' ss' s' a' ∧ (o = Ok () → sr_failed s' = sr_failed s)) ∨ (o = UB ∧ stuck U (cs_regs cs')).
Proof.
  intros H Hbw E. destruct H as [H1 H2 H3 H4 H5 H6 H7 H8 H9 H10]. destruct cs as [rs bs]. cbn [cs_regs cs_bufs] in *.
  unfold flush, bind, on_regs_of in E. cbn [cs_regs cs_bufs] in E. rewrite call_unit_eq in E. destruct (run_sop U (At i OSync) rs) as [rs1 o1] eqn:E1.
  destruct (at_step _ _ _ _ _ OSync _ _ H1 ltac:(unfold below_wrap in *; lia) H2 I E1) as [(s1 & [-> Hs1] & Hr1)|[-> ?]].
  2:{ cbn in E. injection E as <- <-. by right. }
  cbn in E. destruct (play_all U i bs rs1) as [[rs2 bs'] o2] eqn:E2. injection E as <- <-.
  pose proof (lookup_lt_Some _ _ _ H2) as Li.
  destruct (flat_fit i (<[i := s1]> ss) bs (ap_queues a)) as [F1 F2]; [done| |].
  { intros b x K Hx HK. destruct (H7 _ _ Hx) as (B0 & B1 & t & Q & m & Bt & Bp & BQ & Bm & B3 & B4 & B5). assert (Q = K) as -> by congruence.
    eapply Forall2_impl; [done|]. intros c y. apply fitsq_mono. intros j t0 Hj Ht0. exists t0. by rewrite list_lookup_insert_ne. }
  assert (length (flatF bs) = length (concat (ap_queues a))) as Hlen by (by eapply Forall2_length).
  assert (pinv (S n) i (sr_issued s) (cb_staging <$> bs) rs1 (<[i := s1]> ss) s1 (flatF bs) (concat (ap_queues a))) as Hp.
  { split; try (by rewrite Hs1).
    - done.
    - by apply list_lookup_insert.
    - intros j Hj. apply elem_of_list_fmap in Hj as (x & -> & Hx). apply elem_of_list_lookup in Hx as [b Hx].
      destruct (H7 _ _ Hx) as (B0 & B1 & t & Q & m & Bt & Bp & _). split; [done|]. exists t. by rewrite list_lookup_insert_ne.
    - done.
    - apply flat_nodup; [done|]. intros b x Hx. destruct (H7 _ _ Hx) as (B0 & B1 & t & Q & m & _ & _ & _ & _ & _ & B4 & _). done.
    - done.
    - intros g Hg. destruct (H10 _ Hg) as (V1 & V2 & V3). rewrite Hs1. split; [|done]. split; [done|]. split; [done|]. by apply not_elem_of_nil. }
  assert (Forall (λ b, cb_live b = true) bs) as Hlv.
  { apply Forall_lookup. intros b x Hx. by destruct (H7 _ _ Hx). }
  destruct (play_all_spec _ _ _ _ _ _ _ _ _ _ _ _ Hlv F2 Hp ltac:(rewrite Hlen; unfold below_wrap in *; lia) E2)
    as [(n' & ss' & s' & Ks' & Hn' & G2 & Hp' & Hd & Hst & Hlv' & Hc & Hfl)|?]; [left|by right].
  assert (length (flatF bs') = length (concat Ks')) as Hlen' by (eapply Forall2_length, (pv_fit _ _ _ _ _ _ _ _ _ Hp')).
  exists n', ss', s', (AProg (sr_world s') (ap_known a) Ks' (ap_left a)). cbn [ap_queues]. split; [lia|]. split.
  { exists o2, (sr_world s'), Ks'. split; [|done]. rewrite <- H3. by rewrite Hs1 in Hd. }
  assert (length bs' = length bs) as Hlb. { by rewrite <- (fmap_length cb_staging bs'), Hst, fmap_length. }
  split; [|intros Ho; rewrite (Hfl Ho); by rewrite Hs1]. split; cbn [cs_regs cs_bufs ap_world ap_known ap_queues ap_left].
  - apply (pv_reach _ _ _ _ _ _ _ _ _ Hp').
  - apply (pv_rec _ _ _ _ _ _ _ _ _ Hp').
  - done.
  - by rewrite (pv_iss _ _ _ _ _ _ _ _ _ Hp').
  - symmetry. by eapply Forall2_length.
  - by rewrite Hlb.
  - intros b x Hx. assert (∃ y, bs !! b = Some y ∧ cb_staging y = cb_staging x) as (y & Hy & Hyx).
    { assert ((cb_staging <$> bs') !! b = Some (cb_staging x)) as Hfx by (by rewrite list_lookup_fmap, Hx). rewrite Hst, list_lookup_fmap in Hfx.
      destruct (bs !! b) as [y|]; [|done]. injection Hfx as Hfx. eauto. }
    destruct (H7 _ _ Hy) as (B0 & B1 & t & Q & m & Bt & Bp & BQ & Bm & B3 & B4 & B5). rewrite Hyx in *.
    destruct (flat_unfit _ _ _ _ G2 (pv_fit _ _ _ _ _ _ _ _ _ Hp') _ _ Hx) as (Q' & HQ' & Hfit).
    assert (∃ t', ss' !! cb_staging x = Some t' ∧ sr_pending t' = []) as (t' & Ht' & Htp').
    { apply (pv_stg _ _ _ _ _ _ _ _ _ Hp'). rewrite <- Hyx. apply elem_of_list_fmap_1. by eapply elem_of_list_lookup_2. }
    split; [by eapply Forall_lookup_1 in Hlv'|]. split; [done|]. exists t', Q', m. split; [done|]. split; [done|]. split; [done|]. split; [done|].
    split; [done|]. split; [by eapply unflat_nodup; [apply (pv_nd _ _ _ _ _ _ _ _ _ Hp')|]|].
    specialize (Hc _ B1). rewrite (cc_at _ _ _ _ _ _ ltac:(by rewrite Hst) Hx Hfit) in Hc. rewrite <- Hyx in B3.
    rewrite <- Hyx, (cc_at _ _ _ _ _ _ H8 Hy B3), Hyx in Hc. rewrite (sz_some _ _ _ Ht') in Hc.
    unfold sz in Hc. rewrite list_lookup_insert_ne, Bt in Hc by done. cbn in Hc. lia.
  - by rewrite Hst.
  - apply (pv_made _ _ _ _ _ _ _ _ _ Hp').
  - intros g Hg. destruct (pv_vac _ _ _ _ _ _ _ _ _ Hp' g Hg) as [(V1 & V2 & _) V3]. done.
Qed.

Lemma cnext_len a op o a' : cnext U a op o a' → length (ap_queues a') = length (ap_queues a).
Proof.
  destruct op as [b k|]; cbn.
  - intros [(g & -> & _ & ->)|(cs & -> & -> & _)]; cbn; [|done]. by rewrite alter_length.
  - intros (o1 & w' & qs' & Hd & -> & ->). cbn. clear -Hd. induction Hd; cbn; congruence.
Qed.

Lemma run_cops_spec i ops : ∀ n cs ss s a cs' os, cinv n i cs ss s a →
  below_wrap (2 * (n + 3 * length (concat (ap_queues a)) + 5 * length ops)) → run_cops U i ops cs = (cs', os) →
  all_permitted U (length (ap_queues a)) ops →
  (∃ n' ss' s' a', n' + 3 * length (concat (ap_queues a')) ≤ n + 3 * length (concat (ap_queues a)) + 5 * length ops ∧
     cnexts U a ops os a' ∧ cinv n' i cs' ss' s' a' ∧ (Forall (λ o, ∃ x, o = Ok x) os → sr_failed s' = sr_failed s)) ∨ (last os = Some UB ∧ stuck U (cs_regs cs')).
Proof.
  induction ops as [|op ops IH]; intros n cs ss s a cs' os H Hbw E Hp.
  - cbn in E. injection E as <- <-. left. exists n, ss, s, a. split; [lia|]. split; [constructor|]. split; [done|by intros _].
  - cbn [run_cops] in E. destruct (run_cop U i op cs) as [cs1 o] eqn:E1. cbn [length] in Hbw.
    apply Forall_cons in Hp as [Hp1 Hp].
    assert ((∃ n1 ss1 s1 a1, n1 + 3 * length (concat (ap_queues a1)) ≤ n + 3 * length (concat (ap_queues a)) + 5 ∧
      cnext U a op o a1 ∧ cinv n1 i cs1 ss1 s1 a1 ∧ ((∃ x, o = Ok x) → sr_failed s1 = sr_failed s)) ∨ (o = UB ∧ stuck U (cs_regs cs1))) as [(n1 & ss1 & s1 & a1 & Hn1 & Hx1 & H1 & Hf1)|[-> ?]].
    { destruct op as [b k|]; cbn in E1; unfold bind, ret in E1.
      - destruct (record1 U i b k cs) as [cs2 o2] eqn:E2. destruct (record1_step _ _ _ _ _ _ _ _ _ _ H ltac:(unfold below_wrap in *; lia) Hp1 E2) as (n1 & ss1 & s1 & a1 & Hn1 & Hx1 & H1 & Hf1).
        left. exists n1, ss1, s1, a1. assert ((cs1, o) = (cs2, omap_out Some o2)) as [= -> ->] by (rewrite <- E1; by destruct o2).
        split; [|split; [done|split; [done|by intros _]]]. destruct Hx1 as [(g & _ & _ & ->)|(? & _ & -> & _)]; cbn [ap_queues]; [|lia].
        rewrite (Permutation_length (concat_alter (k, g) _ _ (proj1 Hp1))). cbn. lia.
      - destruct (flush U i cs) as [cs2 o2] eqn:E2. destruct (flush_step _ _ _ _ _ _ _ _ H ltac:(unfold below_wrap in *; lia) E2) as [(n1 & ss1 & s1 & a1 & Hn1 & Hx1 & H1 & Hf1)|[-> ?]].
        + left. exists n1, ss1, s1, a1. assert ((cs1, o) = (cs2, omap_out (λ _, None) o2)) as [= -> ->] by (rewrite <- E1; by destruct o2).
          split; [lia|]. split; [done|]. split; [done|]. intros [x Hx]. apply Hf1. by destruct o2 as [[]|?|].
        + right. by injection E1 as <- <-. }
    + pose proof (cnext_len _ _ _ _ Hx1) as Hl1.
      assert (o ≠ UB) as Ho. { intros ->. destruct op; cbn in Hx1.
        - destruct Hx1 as [(? & ? & _)|(? & ? & _)]; done.
        - destruct Hx1 as (o1 & ? & ? & Hd & Ho & _). apply drained_out in Hd. by destruct o1. }
      destruct (run_cops U i ops cs1) as [cs2 os2] eqn:E2.
      assert ((cs', os) = (cs2, o :: os2)) as [= -> ->] by (rewrite <- E; by destruct o).
      destruct (IH _ _ _ _ _ _ _ H1 ltac:(unfold below_wrap in *; lia) E2) as [(n2 & ss2 & s2 & a2 & Hn2 & Hx2 & H2 & Hf2)|[Hl2 ?]].
      * by rewrite Hl1.
      * left. exists n2, ss2, s2, a2. split; [cbn; lia|]. split; [by econstructor|]. split; [done|]. intros [Ho' Hos]%Forall_cons. by rewrite Hf2, Hf1.
      * right. split; [|done]. by destruct os2.
    + injection E as <- <-. by right.
Qed.

Lemma concat_nils (bs : list buffer) : concat ((λ _ : buffer, @nil (crec * handle)) <$> bs) = [].
Proof. induction bs; done. Qed.
Lemma ready_cinv n i cs ss s : ready U n i cs ss s → cinv n i cs ss s (aprog_of cs ss s).
Proof.
  intros [H1 H2 H3 H4]. assert (concat ((λ _ : buffer, @nil (crec * handle)) <$> cs_bufs cs) = []) as Hc by apply concat_nils.
  split; cbn [ap_world ap_known ap_queues ap_left aprog_of]; try done.
  - by rewrite fmap_length.
  - by rewrite fmap_length.
  - intros b x Hx. destruct (H3 _ _ Hx) as (Q1 & Q2 & Q3 & t & Ht & Hp). split; [done|]. split; [done|]. exists t, [], (staging_size ss x).
    split; [done|]. split; [done|]. split; [by rewrite list_lookup_fmap, Hx|]. split; [by rewrite list_lookup_fmap, Hx|]. rewrite Q1. split; [constructor|].
    split; [constructor|]. unfold staging_size. rewrite Ht. cbn. unfold nc. cbn. lia.
  - rewrite Hc. constructor.
  - intros g. rewrite Hc. by intros ?%elem_of_nil.
Qed.

Lemma cinv_shows n i cs ss s a : cinv n i cs ss s a → shows U n i cs a.
Proof.
  intros [H1 H2 H3 H4 H5 H6 H7 H8 H9 H10]. exists n, ss, s. split; [done|]. split; [done|]. split; [done|]. split; [done|]. split; [done|]. split; [done|].
  intros b x Hx. destruct (H7 _ _ Hx) as (B0 & B1 & t & Q & m & Bt & Bp & BQ & Bm & B3 & B4 & B5). exists Q, m. split; [done|]. split; [done|].
  split; [by eapply Forall2_length|]. unfold staging_size. rewrite Bt. cbn. done.
Qed.

Theorem history_full n i cs ss s ops cs' os : ready U n i cs ss s → below_wrap (2 * (n + 5 * length ops)) → run_cops U i ops cs = (cs', os) →
  all_permitted U (length (cs_bufs cs)) ops →
  (∃ a' k ss' s', cnexts U (aprog_of cs ss s) ops os a' ∧ k + 3 * length (concat (ap_queues a')) ≤ n + 5 * length ops ∧ cinv k i cs' ss' s' a' ∧
     (Forall (λ o, ∃ x, o = Ok x) os → sr_failed s' = sr_failed s)) ∨ (last os = Some UB ∧ stuck U (cs_regs cs')).
Proof.
  intros Hr Hbw E Hp. pose proof (ready_cinv _ _ _ _ _ Hr) as H.
  assert (concat (ap_queues (aprog_of cs ss s)) = []) as Hc by apply concat_nils.
  assert (below_wrap (2 * (n + 3 * length (concat (ap_queues (aprog_of cs ss s))) + 5 * length ops))) as Hbw'.
  { rewrite Hc. cbn [length]. by rewrite Nat.mul_0_r, Nat.add_0_r. }
  destruct (run_cops_spec _ _ _ _ _ _ _ _ _ H Hbw' E) as [(n' & ss' & s' & a' & Hn' & Hx & H' & Hf)|?].
  - cbn. by rewrite fmap_length.
  - left. exists a', n', ss', s'. split; [done|]. rewrite Hc in Hn'. cbn [length] in Hn'. split; [lia|]. done.
  - by right.
Qed.
Theorem history_spec n i cs ss s ops cs' os : ready U n i cs ss s → below_wrap (2 * (n + 5 * length ops)) → run_cops U i ops cs = (cs', os) →
  all_permitted U (length (cs_bufs cs)) ops →
  (∃ a', cnexts U (aprog_of cs ss s) ops os a' ∧ shows U (n + 5 * length ops) i cs' a') ∨ (last os = Some UB ∧ stuck U (cs_regs cs')).
Proof.
  intros Hr Hbw E Hp. destruct (history_full _ _ _ _ _ _ _ _ Hr Hbw E Hp) as [(a' & n' & ss' & s' & Hx & Hn' & H' & _)|?]; [|by right].
  left. exists a'. split; [done|]. apply cinv_shows in H' as (k & ss2 & s2 & Hk & H2). exists k, ss2, s2. split; [lia|done].
Qed.
(** Behind a flush that left nothing queued. *)
Lemma cinv_ready n i cs ss s a : cinv n i cs ss s a → Forall (.= []) (ap_queues a) → ready U n i cs ss s.
Proof.
  intros [H1 H2 H3 H4 H5 H6 H7 H8 H9 H10] Hq. split; try done. intros b x Hx. destruct (H7 _ _ Hx) as (B0 & B1 & t & Q & m & Bt & Bp & BQ & Bm & B3 & B4 & B5).
  assert (Q = []) as -> by (by eapply (proj1 (Forall_lookup _ _) Hq)). apply Forall2_nil_inv_r in B3. split; [done|]. split; [done|]. split; [done|]. by exists t.
Qed.
End proofs.
