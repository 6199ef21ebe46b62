(** The loop of visit does what calls of set do. *)
From Verif Require Import Base Bits Layout PropLayout HandlePool HandleSpec HandlePoolProofs SparseMap SparseMapProofs
  HashTable HashTableProofs HashTableMap Bitset BitsetProofs ComponentSet ComponentSetProofs
  Chunk ChunkProofs Archetype ArchetypeProofs Registry RegistryStore RegistryProofs View ViewProofs RegSpec RegSpecProofs RegObs EntityRef.

Local Arguments ck_visit_go : simpl never.

Section ref.
Context (U : universe).
Hypothesis HU : u_wf U.

Definition vals (m : gmap cid val) (cs : list cid) : list (cid * val) := omap (λ c, (c,.) <$> m !! c) cs.
Definition cells (l : list (cid * val)) : list (cid * cell) := (λ cv, (cv.1, CVal cv.2)) <$> l.

(** What is known about the place of an entity. *)
Record at_place (r : registry) (h : handle) (m : gmap cid val) (a c i : nat) (ar : archetype) (k : chunk) (cs : list cid) : Prop := {
  tp_loc : rg_location h r = (r, Ok (Loc (Some a) c i));
  tp_ar : rg_heap r !! a = Some ar;
  tp_k : ar_chunks ar !! c = Some k;
  tp_size : i < ck_size k;
  tp_dense : (drop 1 (sm_dense (ar_blocks ar))).*1 = cs;
  tp_nd : NoDup cs;
  tp_cs : ∀ x, x ∈ cs ↔ is_Some (m !! x);
  tp_ent : u_ent U ∉ cs;
  tp_block : ∀ e, e ∈ drop 1 (sm_dense (ar_blocks ar)) → bm_id e.2 = e.1 ∧ ∃ v, m !! e.1 = Some v ∧ ck_mem k !! addr e.2 i = Some (CVal v);
  tp_set : ∀ e v, e ∈ drop 1 (sm_dense (ar_blocks ar)) →
    rg_set U h e.1 (CtorOk v) r =
      (rg_set_heap r (<[a := ar_with_chunks ar (<[c := Chunk (<[addr e.2 i := CVal v]> (ck_mem k)) (ck_size k) (ck_max k) (ck_lost k)]> (ar_chunks ar))]> (rg_heap r)), Ok tt) }.

Lemma place_of n r s h m : reached U n r s → below_wrap (2 * n) → sr_world s !! h = Some m →
  ∃ a c i ar k cs, at_place r h m a c i ar k cs.
Proof.
  intros Hr Hbw Hm. destruct (reached_ri U HU _ _ _ Hr Hbw) as (iss & hp & Hri). pose proof Hri as [_ H _].
  destruct (loc_in U H h m Hm) as (a & p & cs & rowss & rows & El & Ha & Hp & Hrows & Hf & Hl).
  destruct (st_arch U _ _ _ _ _ (rv_st _ _ _ _ _ _ _ _ _ H) Ha) as (ar & Har & Hrep). cbn [fst snd] in Hrep.
  pose proof Hp as (rows' & Hrows' & Hi)%at_Some. destruct (ar_chunk _ _ _ _ _ _ _ Hrep Hrows') as (k & Hk & Hrk).
  pose proof (ap_bl _ _ _ _ _ Hrep) as Hbl. pose proof (bo_nd _ _ _ _ Hbl) as Hnd. apply NoDup_cons in Hnd as [Hent Hnd].
  assert ((drop 1 (sm_dense (ar_blocks ar))).*1 = cs) as Ek. { rewrite fmap_drop. by rewrite (bo_keys _ _ _ _ Hbl). }
  assert (∀ x, x ∈ cs ↔ is_Some (m !! x)) as Hcs by (intros x; by apply (full_elem _ h)).
  assert (∀ e, e ∈ drop 1 (sm_dense (ar_blocks ar)) → e.1 ∈ cs ∧ sm_abs (ar_blocks ar) !! e.1 = Some e.2) as Hd.
  { intros e He. split; [rewrite <- Ek; apply elem_of_list_fmap; by exists e|]. eapply dense_ad; [done|].
    apply elem_of_list_lookup in He as [j Hj]. rewrite lookup_drop in Hj. by eapply elem_of_list_lookup_2. }
  assert (∀ e, e ∈ drop 1 (sm_dense (ar_blocks ar)) → bm_id e.2 = e.1 ∧ ∃ v, m !! e.1 = Some v ∧ ck_mem k !! addr e.2 p.2 = Some (CVal v)) as Hb.
  { intros e He. destruct (Hd e He) as [Hc Hb]. split; [by apply (bo_id _ _ _ _ Hbl)|]. pose proof Hc as [v Hv]%Hcs. exists v. split; [done|].
    replace (addr e.2 p.2) with (ad (ar_blocks ar) e.1 p.2) by (unfold ad; by rewrite Hb).
    by eapply (read_repr U Hbl _ _ _ _ (h, m)). }
  exists a, p.1, p.2, ar, k, cs. split; try done.
  - rewrite (cr_size _ _ _ _ _ _ _ Hrk). by eapply lookup_lt_Some.
  - intros e v He. destruct (Hd e He) as [Hc Hbe]. destruct (Hb e He) as (_ & v0 & Hv0 & Hmem).
    assert (rg_set_impl U h e.1 r = (r, Ok (false, (a, p.1, ad (ar_blocks ar) e.1 p.2)))) as Ei.
    { unfold rg_set_impl. rewrite (bind_ok _ _ _ _ _ El). cbn [loc_of lc_arch lc_chunk lc_row fst snd default].
      rewrite (bind_ok _ _ _ _ _ (rg_arch_run _ _ _ Har)). rewrite (ar_contains_spec U _ _ _ _ e.1 Hrep).
      rewrite bool_decide_true by done.
      pose proof (ar_ref_spec U _ _ _ _ _ _ e.1 Hrep Hp) as Er. rewrite decide_True in Er by (by right).
      rewrite (bind_ok _ _ _ _ _ (on_arch_same _ _ _ _ _ Har Er)). done. }
    unfold rg_set. rewrite (bind_ok _ _ _ _ _ Ei). cbn [fst snd]. unfold at_ptr. cbn [fst snd]. unfold on_arch. rewrite Har. unfold on_chunk. rewrite Hk.
    unfold assign_obj, ad. by rewrite Hbe, Hmem.
Qed.

Lemma visit_go_cons cb i log e l : ck_visit_go cb i log (e :: l) =
  (let! x := read_obj (addr e.2 i) in
   (match cb log (bm_id e.2) x with VKeep => ret tt | VWrite v => assign_obj (addr e.2 i) (CVal v) | VRaise e => throw e end) ;;!
   ck_visit_go cb i (log ++ [(bm_id e.2, x)]) l).
Proof. done. Qed.

Lemma below_wrap_mono a b : a ≤ b → below_wrap b → below_wrap a.
Proof. unfold below_wrap. lia. Qed.

Lemma vals_insert m cs c v : c ∉ cs → vals (<[c := v]> m) cs = vals m cs.
Proof.
  unfold vals. induction cs as [|x cs IH]; [done|]. intros [Hx Hcs]%not_elem_of_cons. cbn [omap list_omap]. rewrite lookup_insert_ne by done. by rewrite IH.
Qed.

Lemma writes_dom cb l : ∀ log ws, visit_writes cb log l = Some ws → ws.*1 ⊆ l.*1 ∧ length ws ≤ length l.
Proof.
  induction l as [|[c v] l IH]; intros log ws H; cbn [visit_writes] in H; [by injection H as <-|].
  destruct (cb log c (CVal v)) as [|v'|e]; [|apply fmap_Some in H as (ws0 & H & ->)|done].
  - destruct (IH _ _ H). cbn. split; [set_solver|lia].
  - destruct (IH _ _ H). cbn. split; [set_solver|lia].
Qed.

(** Assigning to an existing component, on the abstract machine. *)
Lemma set_there n r s h m c v v0 r' : reached U n r s → below_wrap (2 * S n) → sr_world s !! h = Some m → m !! c = Some v0 → c ≠ u_ent U →
  rg_set U h c (CtorOk v) r = (r', Ok tt) → reached U (S n) r' (with_world s (<[h := <[c := v]> m]> (sr_world s))).
Proof.
  intros Hr Hbw Hm Hc Hent E.
  assert (h ∈ sr_issued s) as Hi. { destruct (reached_swf U HU _ _ _ Hr) as [Hw _]. apply Hw. eauto. }
  destruct (reached_step U HU n r s (OSet h c (CtorOk v)) r' (Ok RUnit) Hr Hbw) as [(s' & Hn & Hr' & _)|[? _]]; [|by cbn; unfold mapM; rewrite E| |done].
  - cbn. split; [done|]. done.
  - cbn in Hn. rewrite Hm in Hn. destruct Hn as [[_ ->]|[? _]]; [done|done].
Qed.

Lemma with_world_twice s w w' : with_world (with_world s w) w' = with_world s w'.
Proof. done. Qed.

Lemma visit_loop cb h a c i bl l : ∀ log n r s m ar k cs, reached U n r s → below_wrap (2 * (n + length l)) → sr_world s !! h = Some m →
  at_place r h m a c i ar k cs → ar_blocks ar = bl → (∀ e, e ∈ l → e ∈ drop 1 (sm_dense bl)) → NoDup l.*1 →
  match visit_writes cb log (vals m l.*1) with
  | None => ∃ r' e, on_arch (Some a) (on_chunk c (ck_visit_go cb i log l)) r = (r', Throw e)
  | Some ws => ∃ r', on_arch (Some a) (on_chunk c (ck_visit_go cb i log l)) r = (r', Ok (log ++ cells (vals m l.*1))) ∧
      reached U (n + length ws) r' (with_world s (<[h := list_to_map ws ∪ m]> (sr_world s)))
  end.
Proof.
  induction l as [|[x b] l IH]; intros log n r s m ar k cs Hr Hbw Hm Hp Hbl Hl Hnd.
  - cbn [fmap list_fmap vals omap list_omap visit_writes cells app length]. exists r. rewrite app_nil_r. split.
    + unfold on_arch. rewrite (tp_ar _ _ _ _ _ _ _ _ _ Hp). unfold on_chunk. rewrite (tp_k _ _ _ _ _ _ _ _ _ Hp). unfold ck_visit_go, ret.
      unfold ar_with_chunks, rg_set_heap. rewrite (list_insert_id (ar_chunks ar)) by apply Hp.
      pose proof (tp_ar _ _ _ _ _ _ _ _ _ Hp) as Ha. rewrite (list_insert_id (rg_heap r)); [by destruct r|]. rewrite Ha. by destruct ar.
    + rewrite Nat.add_0_r. change (list_to_map [] ∪ m) with ((∅ : gmap cid val) ∪ m). rewrite (left_id_L ∅ _). rewrite insert_id by done. by destruct s.
  - destruct (tp_block _ _ _ _ _ _ _ _ _ Hp (x, b)) as (Eid & v & Hv & Hmem); [rewrite Hbl; apply Hl; by left|]. cbn [fst snd] in Eid, Hv, Hmem.
    rewrite fmap_cons in Hnd |- *. unfold vals. cbn [fst omap list_omap]. rewrite Hv. cbn [fmap option_fmap option_map visit_writes].
    change (omap (λ c0, (c0,.) <$> m !! c0) l.*1) with (vals m l.*1).
    apply NoDup_cons in Hnd as [Hx Hnd].
    assert (∀ r0 ar0 k0, rg_heap r0 !! a = Some ar0 → ar_chunks ar0 !! c = Some k0 → ck_mem k0 = ck_mem k →
      on_arch (Some a) (on_chunk c (ck_visit_go cb i log ((x, b) :: l))) r0 =
      on_arch (Some a) (on_chunk c ((match cb log x (CVal v) with VKeep => ret tt | VWrite v => assign_obj (addr b i) (CVal v) | VRaise e => throw e end) ;;!
        ck_visit_go cb i (log ++ [(x, CVal v)]) l)) r0) as Estep.
    { intros r0 ar0 k0 Ha Hk Ek. unfold on_arch. rewrite Ha. unfold on_chunk. rewrite Hk. rewrite visit_go_cons. cbn [fst snd]. unfold bind at 1, read_obj at 1. rewrite Ek, Hmem, Eid. done. }
    rewrite (Estep r ar k) by (done || apply Hp). clear Estep.
    destruct (cb log x (CVal v)) as [|v'|e].
    + specialize (IH (log ++ [(x, CVal v)]) n r s m ar k cs Hr). change (ret tt ;;! ck_visit_go cb i (log ++ [(x, CVal v)]) l) with (ck_visit_go cb i (log ++ [(x, CVal v)]) l).
      assert (below_wrap (2 * (n + length l))) as Hbw' by (eapply below_wrap_mono; [|exact Hbw]; cbn [length]; lia).
      specialize (IH Hbw' Hm Hp Hbl ltac:(intros e He; apply Hl; by right) Hnd).
      destruct (visit_writes _ _ _) as [ws|]; [|done]. destruct IH as (r' & E & Hr'). exists r'. split; [|done]. rewrite E. cbn [cells fmap list_fmap fst snd]. by rewrite <- app_assoc.
    + set (k1 := Chunk (<[addr b i := CVal v']> (ck_mem k)) (ck_size k) (ck_max k) (ck_lost k)).
      set (ar1 := ar_with_chunks ar (<[c := k1]> (ar_chunks ar))). set (r1 := rg_set_heap r (<[a := ar1]> (rg_heap r))).
      pose proof (tp_set _ _ _ _ _ _ _ _ _ Hp (x, b) v' ltac:(rewrite Hbl; apply Hl; by left)) as Eset. cbn [fst snd] in Eset. fold k1 in Eset. fold ar1 in Eset. fold r1 in Eset.
      assert (x ≠ u_ent U) as Hent.
      { intros ->. apply (tp_ent _ _ _ _ _ _ _ _ _ Hp). apply (tp_cs _ _ _ _ _ _ _ _ _ Hp). eauto. }
      assert (below_wrap (2 * S n)) as Hbw1 by (eapply below_wrap_mono; [|exact Hbw]; cbn [length]; lia).
      pose proof (set_there n r s h m x v' v r1 Hr Hbw1 Hm Hv Hent Eset) as Hr1.
      assert (rg_heap r1 !! a = Some ar1) as Ha1. { cbn [r1 rg_set_heap rg_heap]. apply list_lookup_insert. eapply lookup_lt_Some, Hp. }
      assert (ar_chunks ar1 !! c = Some k1) as Hk1. { cbn [ar1 ar_with_chunks ar_chunks]. apply list_lookup_insert. eapply lookup_lt_Some, Hp. }
      assert (sr_world (with_world s (<[h := <[x := v']> m]> (sr_world s))) !! h = Some (<[x := v']> m)) as Hm1 by (cbn; by rewrite lookup_insert).
      assert (at_place r1 h (<[x := v']> m) a c i ar1 k1 cs) as Hp1.
      { destruct (place_of (S n) r1 _ h _ Hr1 Hbw1 Hm1) as (a' & c' & i' & ar' & k' & cs' & Hp').
        assert (rg_location h r1 = (r1, Ok (Loc (Some a) c i))) as El1.
        { pose proof (tp_loc _ _ _ _ _ _ _ _ _ Hp) as El. unfold rg_location in El |- *. change (rg_alive r1 h) with (rg_alive r h). change (rg_locs r1) with (rg_locs r).
          destruct (rg_alive r h); [|done]. destruct (sm_at (rg_locs r) (h_id h)) as [[l0|]|]; [|done|done]. by injection El as ->. }
        pose proof (tp_loc _ _ _ _ _ _ _ _ _ Hp') as El'. rewrite El1 in El'. injection El' as <- <- <-.
        pose proof (tp_ar _ _ _ _ _ _ _ _ _ Hp') as Ha'. rewrite Ha1 in Ha'. injection Ha' as <-.
        pose proof (tp_k _ _ _ _ _ _ _ _ _ Hp') as Hk'. rewrite Hk1 in Hk'. injection Hk' as <-.
        pose proof (tp_dense _ _ _ _ _ _ _ _ _ Hp') as Hd'. change (ar_blocks ar1) with (ar_blocks ar) in Hd'. rewrite (tp_dense _ _ _ _ _ _ _ _ _ Hp) in Hd'. by subst cs'. }
      assert (below_wrap (2 * (S n + length l))) as Hbw2 by (eapply below_wrap_mono; [|exact Hbw]; cbn [length]; lia).
      specialize (IH (log ++ [(x, CVal v)]) (S n) r1 _ _ ar1 k1 cs Hr1 Hbw2 Hm1 Hp1 Hbl ltac:(intros e He; apply Hl; by right) Hnd).
      rewrite vals_insert in IH by done.
      assert (on_arch (Some a) (on_chunk c (assign_obj (addr b i) (CVal v') ;;! ck_visit_go cb i (log ++ [(x, CVal v)]) l)) r =
              on_arch (Some a) (on_chunk c (ck_visit_go cb i (log ++ [(x, CVal v)]) l)) r1) as Estep.
      { unfold on_arch. rewrite (tp_ar _ _ _ _ _ _ _ _ _ Hp), Ha1. unfold on_chunk. rewrite (tp_k _ _ _ _ _ _ _ _ _ Hp), Hk1.
        unfold bind at 1, assign_obj at 1. rewrite Hmem. fold k1. destruct (ck_visit_go cb i (log ++ [(x, CVal v)]) l k1) as [k2 o].
        cbn [r1 rg_set_heap rg_heap ar1 ar_with_chunks ar_chunks ar_max ar_blocks ar_comps ar_lost]. unfold rg_set_heap, ar_with_chunks. cbn [rg_pool rg_table rg_search rg_locs rg_heap ar_chunks ar_max ar_blocks ar_comps ar_lost].
        by rewrite !list_insert_insert. }
      rewrite Estep. destruct (visit_writes cb (log ++ [(x, CVal v)]) (vals m l.*1)) as [ws|] eqn:Ews; [|done]. cbn [fmap option_fmap option_map].
      destruct IH as (r' & E & Hr'). exists r'. split; [rewrite E; cbn [cells fmap list_fmap fst snd]; by rewrite <- app_assoc|].
      cbn [length]. replace (n + S (length ws)) with (S n + length ws) by lia. rewrite with_world_twice in Hr'. cbn [sr_world with_world] in Hr'. rewrite insert_insert in Hr'.
      replace (list_to_map ((x, v') :: ws) ∪ m) with (list_to_map ws ∪ <[x := v']> m); [done|]. cbn [list_to_map foldr fst snd].
      apply map_eq. intros y. assert ((list_to_map ws : gmap cid val) !! x = None) as Hnx.
      { apply not_elem_of_list_to_map_1. intros Hin. apply writes_dom in Ews as [Hsub _]. apply Hsub in Hin. apply Hx. unfold vals in Hin. apply elem_of_list_fmap in Hin as ([y' v1] & -> & Hin).
        apply elem_of_list_omap in Hin as (z & Hz & Ez). destruct (m !! z); [|done]. by injection Ez as -> _. }
      destruct (decide (y = x)) as [->|].
      * rewrite lookup_union_r by done. rewrite lookup_insert. symmetry. apply lookup_union_Some_l. by rewrite lookup_insert.
      * rewrite !lookup_union. rewrite lookup_insert_ne by done. by rewrite lookup_insert_ne by done.
    + unfold on_arch. rewrite (tp_ar _ _ _ _ _ _ _ _ _ Hp). unfold on_chunk. rewrite (tp_k _ _ _ _ _ _ _ _ _ Hp). unfold bind at 1, throw. eauto.
Qed.

Lemma vals_perm m cs : NoDup cs → (∀ x, x ∈ cs ↔ is_Some (m !! x)) → NoDup (vals m cs).*1 ∧ ∀ c v, (c, v) ∈ vals m cs ↔ m !! c = Some v.
Proof.
  intros Hnd Hcs. split.
  - assert ((vals m cs).*1 = cs) as ->; [|done]. assert (∀ x, x ∈ cs → is_Some (m !! x)) as H by (intros x; apply Hcs). clear Hcs Hnd.
    induction cs as [|x cs IH]; [done|]. unfold vals. cbn [omap list_omap]. destruct (H x) as [v Hv]; [by left|]. rewrite Hv. cbn. f_equal. apply IH. intros y Hy. apply H. by right.
  - intros c v. unfold vals. rewrite elem_of_list_omap. split.
    + intros (x & Hx & E). destruct (m !! x) eqn:Em; [|done]. injection E as -> ->. done.
    + intros Hc. exists c. split; [apply Hcs; eauto|]. by rewrite Hc.
Qed.

Lemma visit_there cb n r s h m : reached U n r s → below_wrap (2 * (n + size m)) → sr_world s !! h = Some m →
  ∃ l, NoDup l.*1 ∧ (∀ c v, (c, v) ∈ l ↔ m !! c = Some v) ∧
  match visit_writes cb [] l with
  | None => (er_visit h cb r).2 = TTerminated
  | Some ws => ∃ r', er_visit h cb r = (r', TDone (Ok (cells l))) ∧
      reached U (n + length ws) r' (with_world s (<[h := list_to_map ws ∪ m]> (sr_world s)))
  end.
Proof.
  intros Hr Hbw Hm. destruct (place_of n r s h m Hr ltac:(eapply below_wrap_mono; [|exact Hbw]; lia) Hm) as (a & c & i & ar & k & cs & Hp).
  exists (vals m cs). pose proof (vals_perm m cs (tp_nd _ _ _ _ _ _ _ _ _ Hp) (tp_cs _ _ _ _ _ _ _ _ _ Hp)) as [H1 H2]. split; [done|]. split; [done|].
  pose proof (tp_dense _ _ _ _ _ _ _ _ _ Hp) as Hd.
  assert (length (drop 1 (sm_dense (ar_blocks ar))) = size m) as Hlen.
  { rewrite <- (fmap_length fst). rewrite Hd. rewrite <- (size_list_to_set (C := gset cid) cs) by apply Hp. rewrite <- size_dom. f_equal. apply set_eq. intros x. rewrite elem_of_list_to_set, elem_of_dom. apply Hp. }
  pose proof (visit_loop cb h a c i (ar_blocks ar) (drop 1 (sm_dense (ar_blocks ar))) [] n r s m ar k cs Hr ltac:(by rewrite Hlen) Hm Hp eq_refl ltac:(done) ltac:(rewrite Hd; apply Hp)) as Hloop.
  rewrite Hd in Hloop.
  assert (on_arch (Some a) (ar_visit_cb cb c i) r = on_arch (Some a) (on_chunk c (ck_visit_go cb i [] (drop 1 (sm_dense (ar_blocks ar))))) r) as E.
  { unfold on_arch. rewrite (tp_ar _ _ _ _ _ _ _ _ _ Hp). unfold ar_visit_cb, bind at 1, get at 1. unfold on_chunk. rewrite (tp_k _ _ _ _ _ _ _ _ _ Hp).
    unfold ck_visit_cb, bind at 1, get at 1. pose proof (tp_size _ _ _ _ _ _ _ _ _ Hp). by rewrite decide_False by lia. }
  unfold er_visit. rewrite (tp_loc _ _ _ _ _ _ _ _ _ Hp). cbn [lc_arch lc_chunk lc_row]. unfold noexcept. rewrite E.
  destruct (visit_writes cb [] (vals m cs)) as [ws|].
  - destruct Hloop as (r' & -> & Hr'). by exists r'.
  - destruct Hloop as (r' & e & ->). done.
Qed.
End ref.
