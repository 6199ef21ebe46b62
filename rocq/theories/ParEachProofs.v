(** Every interleaving of the tasks of par_each ends in the same registry. *)
From Verif Require Import Base Bits Layout PropLayout HandlePool HandleSpec HandlePoolProofs SparseMap SparseMapProofs
  HashTable HashTableProofs HashTableMap Bitset BitsetProofs ComponentSet ComponentSetProofs
  Chunk ChunkProofs Archetype ArchetypeProofs Registry RegistryStore RegistryProofs View ViewProofs
  ParallelFor PropParallelFor ParEach.
Ltac Zify.zify_post_hook ::= Z.div_mod_to_equations.

Lemma Forall2_same {A} (R : A → A → Prop) (l : list A) : (∀ x, R x x) → Forall2 R l l.
Proof. intros HR. induction l; by constructor. Qed.

Lemma nodup_sublist {A} (l1 l2 : list A) : sublist l1 l2 → NoDup l2 → NoDup l1.
Proof.
  induction 1 as [|x l1 l2 Hs IH|x l1 l2 Hs IH]; [done|..]; intros [Hx Hn]%NoDup_cons; [|by apply IH].
  apply NoDup_cons. split; [|by apply IH]. intros Hx'. apply Hx. clear -Hs Hx'.
  induction Hs as [|y l1 l2 Hs IH|y l1 l2 Hs IH]; [done|apply elem_of_cons in Hx' as [->|?]; [left|right; by apply IH]|right; by apply IH].
Qed.

Section par_each.
Context (U : universe).
Hypothesis HU : u_wf U.

(** The addresses of the objects of [n] rows. *)
Definition cells (bl : blocks) (cs : list cid) (n : nat) : list N :=
  (u_ent U :: cs) ≫= λ c, ad bl c <$> seq 0 n.

Lemma elem_cells bl cs n o : o ∈ cells bl cs n ↔ ∃ c i, c ∈ u_ent U :: cs ∧ i < n ∧ o = ad bl c i.
Proof.
  unfold cells. rewrite elem_of_list_bind. split.
  - intros (c & Ho & Hc). apply elem_of_list_fmap in Ho as (i & -> & Hi%elem_of_seq). exists c, i. split; [done|]. split; [lia|done].
  - intros (c & i & Hc & Hi & ->). exists c. split; [|done]. apply elem_of_list_fmap. exists i. split; [done|]. apply elem_of_seq. lia.
Qed.

(** Everything but the objects of the rows is the same. *)
Definition ck_frame (bl : blocks) (cs : list cid) (k k' : chunk) : Prop :=
  ck_size k' = ck_size k ∧ ck_max k' = ck_max k ∧ ck_lost k' = ck_lost k ∧
  ∀ o, o ∉ cells bl cs (ck_size k) → ck_mem k' !! o = ck_mem k !! o.
Definition ar_frame (a a' : archetype) : Prop :=
  same_arch a a' ∧ ar_lost a' = ar_lost a ∧
  Forall2 (ck_frame (ar_blocks a) (ms_metas (ar_comps a))) (ar_chunks a) (ar_chunks a').
Definition rg_frame (r r' : registry) : Prop :=
  r' = rg_set_heap r (rg_heap r') ∧ Forall2 ar_frame (rg_heap r) (rg_heap r').

Lemma ck_frame_refl bl cs k : ck_frame bl cs k k.
Proof. done. Qed.
Lemma ck_frame_trans bl cs k1 k2 k3 : ck_frame bl cs k1 k2 → ck_frame bl cs k2 k3 → ck_frame bl cs k1 k3.
Proof.
  intros (S1 & M1 & L1 & O1) (S2 & M2 & L2 & O2). split; [congruence|]. split; [congruence|]. split; [congruence|].
  intros o Ho. rewrite O2 by (by rewrite S1). by apply O1.
Qed.
Lemma ar_frame_refl a : ar_frame a a.
Proof. split; [apply same_arch_refl|]. split; [done|]. apply Forall2_same. intros k. apply ck_frame_refl. Qed.
Lemma ar_frame_trans a1 a2 a3 : ar_frame a1 a2 → ar_frame a2 a3 → ar_frame a1 a3.
Proof.
  intros (S1 & L1 & F1) (S2 & L2 & F2). split; [by eapply same_arch_trans|]. split; [congruence|].
  destruct S1 as (_ & Eb & Ec). rewrite Eb, Ec in F2. eapply Forall2_transitive; [|done|done].
  intros k1 k2 k3. apply ck_frame_trans.
Qed.
Lemma rg_frame_refl r : rg_frame r r.
Proof. split; [by destruct r|]. apply Forall2_same. intros a. apply ar_frame_refl. Qed.
Lemma rg_frame_trans r1 r2 r3 : rg_frame r1 r2 → rg_frame r2 r3 → rg_frame r1 r3.
Proof.
  intros (E1 & F1) (E2 & F2). split; [rewrite E2 at 1; rewrite E1; done|]. eapply Forall2_transitive; [|done|done].
  intros a1 a2 a3. apply ar_frame_trans.
Qed.

(** Assignments through the pointers of an iterator. *)
Lemma call_frame rq f log ps k k' x : vw_call rq f log ps k = (k', Ok x) →
  ck_size k' = ck_size k ∧ ck_max k' = ck_max k ∧ ck_lost k' = ck_lost k ∧
  ∀ o, o ∉ ps → ck_mem k' !! o = ck_mem k !! o.
Proof.
  unfold vw_call. unfold bind at 1.
  assert (∀ ps k, (it_deref ps k).1 = k) as Hd.
  { clear. induction ps as [|p ps IH]; intros k; [done|]. cbn [it_deref]. unfold bind, read_obj.
    destruct (ck_mem k !! p); [|done]. specialize (IH k). destruct (it_deref ps k) as [k1 [xs|?|]]; done. }
  specialize (Hd ps k). destruct (it_deref ps k) as [k1 [xs|?|]]; [|done|done]. cbn in Hd. subst k1.
  generalize (f log xs). intros g. unfold bind.
  match goal with |- context [forM (zip rq ps) ?F k] => set (F' := F) end.
  assert (∀ rq ps k k2, forM (zip rq ps) F' k = (k2, Ok tt) → ck_size k2 = ck_size k ∧ ck_max k2 = ck_max k ∧
    ck_lost k2 = ck_lost k ∧ ∀ o, o ∉ ps → ck_mem k2 !! o = ck_mem k !! o) as HF.
  { clear. induction rq as [|q rq IH]; intros [|p ps] k k2; cbn [zip_with forM];
      [intros [= <-]; done|intros [= <-]; done|intros [= <-]; done|].
    unfold bind. destruct (F' (q, p) k) as [k1 [[]|?|]] eqn:E; [|done|done]. intros E2.
    apply IH in E2 as (S2 & M2 & L2 & O2). unfold F' in E. cbn [fst snd] in E.
    assert (ck_size k1 = ck_size k ∧ ck_max k1 = ck_max k ∧ ck_lost k1 = ck_lost k ∧ ∀ o, o ≠ p → ck_mem k1 !! o = ck_mem k !! o) as (S1 & M1 & L1 & O1).
    { destruct (vr_mut q); [|by injection E as <-]. destruct (g (vr_cid q)) as [v|]; [|by injection E as <-].
      unfold assign_obj in E. destruct (ck_mem k !! p); [|done]. injection E as <-. cbn. repeat split.
      intros o Ho. by rewrite lookup_insert_ne. }
    repeat split; try congruence. intros o Ho. rewrite O2 by set_solver. apply O1. set_solver. }
  destruct (forM (zip rq ps) F' k) as [k2 [[]|?|]] eqn:E; [|done|done]. intros [= <- _]. by apply HF in E.
Qed.

Section run.
Context (rq : list vreq) (Hent : VReq (u_ent U) true ∉ rq) (Hne : rq ≠ []) (f : pcallback).

(** An entity after its call. *)
Definition upd (x : row) : row := row_upd rq (f (row_vals U rq x)) x.

Context (s : bool) (n : nat) (iss dd pend : list handle).

(** One call of the callback. *)
Lemma call_step r hp w (a j i : nat) cs rowss rows x ar : rinv U s n r iss dd pend hp w →
  hp !! a = Some (cs, rowss) → rowss !! j = Some rows → rows !! i = Some x → rg_heap r !! a = Some ar → req_in U rq cs →
  ∃ r' w', on_arch (Some a) (on_chunk j (vw_call rq (λ _, f) [] (ptrs (bl := ar_blocks ar) rq i))) r = (r', Ok [row_vals U rq x]) ∧
    rinv U s n r' iss dd pend (<[a := (cs, alter (<[i := upd x]>) j rowss)]> hp) w' ∧ rg_frame r r'.
Proof.
  intros Hr Ha Hj Hi Har Hrq.
  destruct (st_arch U s r hp a _ (rv_st _ _ _ _ _ _ _ _ _ Hr) Ha) as (ar0 & Har0 & Hrep). cbn [fst snd] in Hrep.
  rewrite Har in Har0. injection Har0 as <-.
  destruct (ar_chunk U s ar cs _ _ _ Hrep Hj) as (k & Hk & Hck).
  pose proof (rv_full _ _ _ _ _ _ _ _ _ Hr _ _ Ha) as Hfull. cbn [fst snd] in Hfull.
  assert (full cs x) as Hfx by (apply (fulls_rows cs _ _ _ Hfull Hj); by eapply elem_of_list_lookup_2).
  destruct (call_ok U HU (ap_bl _ _ _ _ _ Hrep) rq Hrq Hent s (λ _, f) [] k rows i x Hck Hi Hfx) as (k' & Ek & Hck').
  fold (upd x) in Hck'. cbn [app] in Ek.
  pose proof (lookup_lt_Some _ _ _ Hj) as Hlt.
  pose proof (ar_put_chunk U s ar cs _ j k' _ Hlt Hrep Hck') as Hrep'.
  assert (alter (<[i := upd x]>) j rowss = <[j := <[i := upd x]> rows]> rowss) as Ealt by (by apply alter_insert).
  rewrite <- Ealt in Hrep'.
  set (ar' := ar_with_chunks ar (<[j := k']> (ar_chunks ar))) in *.
  rewrite (on_arch_run _ _ _ _ _ _ Har (on_chunk_run _ _ _ _ _ _ Hk Ek)). fold ar'.
  assert (at_ rowss (j, i) = Some x) as Hat by (by rewrite (at_lookup _ _ _ _ Hj)).
  exists (rg_set_heap r (<[a := ar']> (rg_heap r))), (<[x.1 := (upd x).2]> w). split; [done|]. split.
  - destruct Hr as [Hst Hf Hlwf Hlw Hp Hlive].
    assert (hrow hp (a, (j, i)) = Some x) as Hq by (unfold hrow; cbn [fst snd]; by rewrite Ha).
    split.
    + by apply (st_put U s r hp a ar ar' cs rowss).
    + apply (full_put hp a cs rowss _ Hf Ha). intros q y Hy. rewrite (at_put _ (j, i) _ _ _ Hat) in Hy. case_decide.
      * injection Hy as <-. by apply upd_full.
      * by apply (Hfull q).
    + done.
    + destruct x as [h m]. apply (lw_update Hlw _ (a, (j, i)) h m); [done|].
      exact (hrow_alter hp a cs rowss (j, i) (h, m) (h, (upd (h, m)).2) Ha Hat).
    + done.
    + intros h Hh. apply Hlive. rewrite lookup_insert_is_Some in Hh. destruct Hh as [<-|[_ ?]]; [|done]. exists x.2.
      apply (lw_world _ _ _ Hlw). exists (a, (j, i)). rewrite Hq. by destruct x.
  - split; [done|]. cbn [rg_set_heap rg_heap]. apply call_frame in Ek as (S1 & M1 & L1 & O1).
    rewrite <- (list_insert_id (rg_heap r) a ar Har) at 1. apply Forall2_insert.
    { apply Forall2_same. intros b. apply ar_frame_refl. }
    split; [by split|]. split; [done|]. cbn [ar' ar_with_chunks ar_chunks].
    rewrite <- (list_insert_id (ar_chunks ar) j k Hk) at 1. apply Forall2_insert.
    { apply Forall2_same. intros b. apply ck_frame_refl. }
    split; [done|]. split; [done|]. split; [done|]. intros o Ho. apply O1. intros Hin. apply Ho. apply elem_cells.
    unfold ptrs in Hin. apply elem_of_list_fmap in Hin as (q & -> & Hq). exists (vr_cid q), i.
    rewrite (ap_cs _ _ _ _ _ Hrep). split; [by apply Hrq|]. split; [|done]. rewrite (cr_size _ _ _ _ _ _ _ Hck).
    by eapply lookup_lt_Some.
Qed.

(** Entering a chunk. *)
Lemma enter_step r hp w (a j : nat) cs rowss rows ar : rinv U s n r iss dd pend hp w →
  hp !! a = Some (cs, rowss) → rowss !! j = Some rows → rg_heap r !! a = Some ar → req_in U rq cs →
  on_arch (Some a) (on_chunk j (let! k := get in let! b := it_new (ar_blocks ar) rq 0 in
      let! e := it_new (ar_blocks ar) rq (ck_size k) in ret (b, e))) r =
    (r, Ok (ptrs (bl := ar_blocks ar) rq 0, ptrs (bl := ar_blocks ar) rq (length rows))).
Proof.
  intros Hr Ha Hj Har Hrq.
  destruct (st_arch U s r hp a _ (rv_st _ _ _ _ _ _ _ _ _ Hr) Ha) as (ar0 & Har0 & Hrep). cbn [fst snd] in Hrep.
  rewrite Har in Har0. injection Har0 as <-.
  destruct (ar_chunk U s ar cs _ _ _ Hrep Hj) as (k & Hk & Hck).
  pose proof (ap_bl _ _ _ _ _ Hrep) as Hbl.
  eapply on_arch_same; [done|]. erewrite on_chunk_run; [|done|].
  2:{ rewrite (bind_ok _ _ k k k) by done. rewrite (bind_ok _ _ _ _ _ (it_new_ok U Hbl rq Hrq 0 k)).
      rewrite (bind_ok _ _ _ _ _ (it_new_ok U Hbl rq Hrq (ck_size k) k)). rewrite (cr_size _ _ _ _ _ _ _ Hck). reflexivity. }
  f_equal. unfold ar_with_chunks. rewrite list_insert_id by done. by destruct ar.
Qed.

(** The chunks and rows par_each starts with. *)
Context (r0 : registry) (hp0 : store) (w0 : world) (Hr0 : rinv U s n r0 iss dd pend hp0 w0).

Definition chunk_good (c : pchunk) : Prop :=
  ∃ a cs rowss rows ar, pc_arch c = Some a ∧ hp0 !! a = Some (cs, rowss) ∧ req_in U rq cs ∧
    rowss !! pc_index c = Some rows ∧ rg_heap r0 !! a = Some ar ∧ pc_blocks c = ar_blocks ar.

(** The places of the rows of a chunk. *)
Definition cplaces (c : pchunk) : list place :=
  match pc_arch c with
  | Some a => (λ i, (a, (pc_index c, i))) <$> seq 0 (length (default [] ((hp0 !! a) ≫= λ x, x.2 !! pc_index c)))
  | None => []
  end.

(** The places a task still has to go to. *)
Definition cur_good (cur : option (pchunk * list N * list N)) (L : list place) : Prop :=
  match cur with
  | None => L = []
  | Some (c, ps, e) => chunk_good c ∧ ∃ i, i ≤ length (cplaces c) ∧
      ps = ptrs (bl := pc_blocks c) rq i ∧ e = ptrs (bl := pc_blocks c) rq (length (cplaces c)) ∧ L = drop i (cplaces c)
  end.
Definition task_good (t : ptask) (L : list place) : Prop :=
  Forall chunk_good (pt_todo t) ∧ ∃ L1, cur_good (pt_cur t) L1 ∧ L = L1 ++ concat (cplaces <$> pt_todo t).

(** The registry after the calls for the places [D], in this order. *)
Definition same_sizes (hp : store) : Prop :=
  Forall2 (λ x y, y.1 = x.1 ∧ length <$> y.2 = length <$> x.2) hp0 hp.
Definition state_good (r : registry) (log : vlog) (D : list place) : Prop :=
  ∃ hp w, rinv U s n r iss dd pend hp w ∧ rg_frame r0 r ∧ same_sizes hp ∧
    (∀ q, hrow hp q = if decide (q ∈ D) then upd <$> hrow hp0 q else hrow hp0 q) ∧
    log = omap (λ q, row_vals U rq <$> hrow hp0 q) D.

(** The number of steps left. *)
Definition steps_left (t : ptask) (L : list place) : nat :=
  length L + 2 * length (pt_todo t) + match pt_cur t with Some _ => 1 | None => 0 end.

(** [k] steps remain, and then the places visited are [All]. *)
Definition conf_good (All : list place) (k : nat) (c : pconf) : Prop :=
  ∃ Ls D, Forall2 task_good (pf_tasks c) Ls ∧ D ++ concat Ls ≡ₚ All ∧ state_good (pf_reg c) (pf_log c) D ∧
    k = sum_list (zip_with steps_left (pf_tasks c) Ls).

Lemma state_start : state_good r0 [] [].
Proof.
  exists hp0, w0. split; [done|]. split; [apply rg_frame_refl|]. split; [by apply Forall2_same|]. split; [|done].
  intros q. rewrite decide_False; [done|]. apply not_elem_of_nil.
Qed.

Lemma frame_arch r (a : nat) ar0 : rg_frame r0 r → rg_heap r0 !! a = Some ar0 → ∃ ar, rg_heap r !! a = Some ar ∧ ar_frame ar0 ar.
Proof. intros [_ Hf] Ha. destruct (Forall2_lookup_l _ _ _ _ _ Hf Ha) as (ar & ? & ?). eauto. Qed.

Lemma sizes_lookup hp (a j : nat) cs rowss rows : same_sizes hp → hp0 !! a = Some (cs, rowss) → rowss !! j = Some rows →
  ∃ rowss' rows', hp !! a = Some (cs, rowss') ∧ rowss' !! j = Some rows' ∧ length rows' = length rows.
Proof.
  intros Hs Ha Hj. destruct (Forall2_lookup_l _ _ _ _ _ Hs Ha) as ([cs' rowss'] & Ha' & Ec & El). cbn [fst snd] in *. subst cs'.
  assert ((length <$> rowss') !! j = Some (length rows)) as E by (rewrite El, list_lookup_fmap, Hj; done).
  rewrite list_lookup_fmap, fmap_Some in E. destruct E as (rows' & Hj' & El'). eauto.
Qed.

Lemma sizes_alter hp (a j i : nat) cs rowss x : same_sizes hp → hp !! a = Some (cs, rowss) →
  same_sizes (<[a := (cs, alter (<[i := x]>) j rowss)]> hp).
Proof.
  intros Hs Ha. destruct (Forall2_lookup_r _ _ _ _ _ Hs Ha) as ([cs' rowss'] & Ha' & Ec & El). cbn [fst snd] in *. subst cs'.
  unfold same_sizes. rewrite <- (list_insert_id hp0 a _ Ha'). apply Forall2_insert; [done|]. cbn [fst snd]. split; [done|].
  rewrite <- El. apply list_eq. intros k. rewrite !list_lookup_fmap. destruct (decide (k = j)) as [->|].
  - rewrite list_lookup_alter. destruct (rowss !! j); [|done]. cbn. by rewrite insert_length.
  - by rewrite list_lookup_alter_ne.
Qed.

Lemma cplaces_good c a cs rowss rows : pc_arch c = Some a → hp0 !! a = Some (cs, rowss) → rowss !! pc_index c = Some rows →
  cplaces c = (λ i, (a, (pc_index c, i))) <$> seq 0 (length rows).
Proof. intros Ea Ha Hj. unfold cplaces. rewrite Ea, Ha. cbn. by rewrite Hj. Qed.

(** One step of one task, from any state where its next place was not visited. *)
Lemma task_step t L r log D m : task_good t L → state_good r log D → (∀ q, q ∈ L → q ∉ D) → pe_step U rq f t = Some m →
  ∃ r' t' l L' D', m r = (r', Ok (t', l)) ∧ task_good t' L' ∧ D' ++ L' = D ++ L ∧ state_good r' (log ++ l) D' ∧
    steps_left t L = S (steps_left t' L').
Proof.
  intros (Htodo & L1 & Hcur & ->) Hst Hnew Hm. destruct t as [todo [[[c ps] e]|]]; cbn [pt_todo pt_cur pe_step] in *.
  - destruct Hcur as [(a & cs & rowss & rows & ar0 & Ea & Ha & Hin & Hj & Har & Eb) (i & Hi & -> & -> & ->)].
    pose proof (cplaces_good c a cs rowss rows Ea Ha Hj) as Ec.
    assert (length (cplaces c) = length rows) as El by (rewrite Ec, fmap_length, seq_length; done).
    destruct Hst as (hp & w & Hr & Hfr & Hsz & Hrows & Hlog).
    destruct (frame_arch r a ar0 Hfr Har) as (ar & Har' & (Em & Eb' & Ecm) & Flost & Fks).
    destruct (sizes_lookup hp a (pc_index c) cs rowss rows Hsz Ha Hj) as (rowss' & rows' & Ha' & Hj' & Elr).
    destruct (st_arch U s r hp a _ (rv_st _ _ _ _ _ _ _ _ _ Hr) Ha') as (ar1 & Har1 & Hrep). cbn [fst snd] in Hrep.
    rewrite Har' in Har1. injection Har1 as <-. pose proof (ap_bl _ _ _ _ _ Hrep) as Hbl. rewrite Eb', <- Eb in Hbl.
    injection Hm as <-. rewrite (it_eqb_ok U HU Hbl rq Hin _ _ Hne). destruct (decide (i = length (cplaces c))) as [E|E].
    + rewrite bool_decide_true by done. exists r, (PTask todo None), [], (concat (cplaces <$> todo)), D.
      rewrite drop_ge by lia. rewrite app_nil_r. split; [done|]. split; [split; [done|]; by exists []|]. split; [done|].
      split; [by exists hp, w|]. unfold steps_left. cbn [pt_todo pt_cur app]. lia.
    + rewrite bool_decide_false by done. rewrite Ea, Eb.
      destruct (lookup_lt_is_Some_2 rows' i) as [x Hx]; [lia|].
      pose proof (call_step r hp w a (pc_index c) i cs rowss' rows' x ar Hr Ha' Hj' Hx Har' Hin) as (r' & w' & E1 & Hr' & Hfr').
      rewrite Eb' in E1. rewrite (bind_ok _ _ _ _ _ E1).
      set (q := (a, (pc_index c, i))).
      assert (cplaces c !! i = Some q) as Hq.
      { rewrite Ec, list_lookup_fmap, lookup_seq_lt by lia. done. }
      assert (q ∉ D) as HqD.
      { apply Hnew. apply elem_of_app. left. rewrite (drop_S _ _ _ Hq). left. }
      assert (hrow hp q = Some x) as Hhq.
      { unfold hrow. cbn [q fst snd]. rewrite Ha'. cbn [snd]. by rewrite (at_lookup _ _ _ _ Hj'). }
      assert (hrow hp0 q = Some x) as Hh0.
      { pose proof (Hrows q) as E2. rewrite decide_False in E2 by done. congruence. }
      exists r', (PTask todo (Some (c, it_incr U rq (ptrs (bl := pc_blocks c) rq i), ptrs (bl := pc_blocks c) rq (length (cplaces c))))),
        [row_vals U rq x], (drop (S i) (cplaces c) ++ concat (cplaces <$> todo)), (D ++ [q]).
      split; [by rewrite Eb|]. split; [|split; [|split]].
      * split; [done|]. exists (drop (S i) (cplaces c)). split; [|done]. split.
        { exists a, cs, rowss, rows, ar0. done. }
        exists (S i). split; [lia|]. split; [|done]. apply (it_incr_ok U Hbl rq Hin).
      * rewrite (drop_S _ _ _ Hq). rewrite <- app_assoc. done.
      * exists (<[a := (cs, alter (<[i := upd x]>) (pc_index c) rowss')]> hp), w'. split; [done|].
        split; [by eapply rg_frame_trans|]. split; [by apply sizes_alter|]. split.
        -- intros q'. pose proof (hrow_alter hp a cs rowss' (pc_index c, i) x (upd x) Ha') as Hal. cbn [fst snd] in Hal.
           rewrite Hal by (by rewrite (at_lookup _ _ _ _ Hj')). fold q. clear Hal. rewrite Hrows.
           destruct (decide (q' = q)) as [->|Hn].
           ++ rewrite decide_True by set_solver. by rewrite Hh0.
           ++ destruct (decide (q' ∈ D)); [rewrite decide_True by set_solver; done|]. rewrite decide_False by set_solver. done.
        -- rewrite omap_app. cbn. rewrite Hh0. cbn. by rewrite Hlog.
      * unfold steps_left. cbn [pt_todo pt_cur]. rewrite !app_length, !drop_length. lia.
  - cbn in Hcur. subst L1. destruct todo as [|c todo]; [done|]. apply Forall_cons in Htodo as [Hc Htodo].
    destruct Hc as (a & cs & rowss & rows & ar0 & Ea & Ha & Hin & Hj & Har & Eb).
    pose proof (cplaces_good c a cs rowss rows Ea Ha Hj) as Ec.
    assert (length (cplaces c) = length rows) as El by (rewrite Ec, fmap_length, seq_length; done).
    pose proof Hst as (hp & w & Hr & Hfr & Hsz & Hrows & Hlog).
    destruct (frame_arch r a ar0 Hfr Har) as (ar & Har' & (Em & Eb' & Ecm) & Flost & Fks).
    destruct (sizes_lookup hp a (pc_index c) cs rowss rows Hsz Ha Hj) as (rowss' & rows' & Ha' & Hj' & Elr).
    pose proof (enter_step r hp w a (pc_index c) cs rowss' rows' ar Hr Ha' Hj' Har' Hin) as E.
    injection Hm as <-. rewrite Eb', <- Eb in E. rewrite Ea. rewrite (bind_ok _ _ _ _ _ E). cbn [fst snd].
    eexists r, _, [], (cplaces c ++ concat (cplaces <$> todo)), D. split; [reflexivity|]. split; [|split; [|split]].
    + split; [done|]. exists (cplaces c). split; [|done]. split.
      { exists a, cs, rowss, rows, ar0. done. }
      exists 0. split; [lia|]. split; [done|]. split; [|done]. by rewrite El, Elr.
    + done.
    + by rewrite app_nil_r.
    + unfold steps_left. cbn [pt_todo pt_cur app fmap list_fmap concat length]. lia.
Qed.

Lemma conf_step All k c (i : nat) t m : conf_good All k c → NoDup All → pf_tasks c !! i = Some t → pe_step U rq f t = Some m →
  ∃ r' t' l k', m (pf_reg c) = (r', Ok (t', l)) ∧ k = S k' ∧
    conf_good All k' (PConf (<[i := t']> (pf_tasks c)) r' (pf_log c ++ l)).
Proof.
  intros (Ls & D & Hts & Hp & Hst & ->) Hnd Hi Hm.
  destruct (Forall2_lookup_l _ _ _ _ _ Hts Hi) as (L & HL & Ht).
  pose proof (elem_of_list_split_length _ _ _ HL) as (A & B & EL & EA).
  pose proof (elem_of_list_split_length _ _ _ Hi) as (TA & TB & ET & ETA).
  destruct (task_step t L (pf_reg c) (pf_log c) D m Ht Hst) as (r' & t' & l & L' & D' & E & Ht' & EDL & Hst' & Hk); [|done|].
  { intros q Hq HD. assert (NoDup (D ++ concat Ls)) as Hn by (by rewrite Hp). apply NoDup_app in Hn as (_ & Hn & _).
    apply (Hn q HD). rewrite EL, concat_app. cbn. set_solver. }
  exists r', t', l, (sum_list (zip_with steps_left (<[i := t']> (pf_tasks c)) (<[i := L']> Ls))). split; [done|].
  assert (<[i := L']> Ls = A ++ L' :: B) as EL'.
  { rewrite EL, EA. by rewrite insert_app_r_alt, Nat.sub_diag by lia. }
  assert (<[i := t']> (pf_tasks c) = TA ++ t' :: TB) as ET'.
  { rewrite ET, ETA. by rewrite insert_app_r_alt, Nat.sub_diag by lia. }
  split.
  - rewrite EL', ET', EL, ET. rewrite !zip_with_app by lia. cbn [zip_with].
    assert (∀ l1 l2, sum_list (l1 ++ l2) = sum_list l1 + sum_list l2) as Hsum.
    { clear. induction l1 as [|x l1 IH]; intros l2; [done|]. cbn. rewrite IH. lia. }
    assert (∀ x l1, sum_list (x :: l1) = x + sum_list l1) as Hcons by done.
    rewrite !Hsum, !Hcons. lia.
  - exists (<[i := L']> Ls), D'. cbn [pf_tasks pf_reg pf_log]. split; [by apply Forall2_insert|]. split; [|done].
    rewrite <- Hp. rewrite EL', EL, !concat_app. cbn [concat].
    rewrite (Permutation_app_swap_app D' (concat A)), (Permutation_app_swap_app D (concat A)).
    by rewrite !(app_assoc _ _ (concat B)), EDL.
Qed.

(** All executions. *)
Lemma conf_run All k c c' : NoDup All → conf_good All k c → rtc (pe_run U rq f) c c' → ∃ k', conf_good All k' c'.
Proof.
  intros Hnd Hc Hrun. revert k Hc. induction Hrun as [c|c c1 c' Hs Hrun IH]; intros k Hc; [eauto|].
  destruct Hs as [c i t m r' t' l Hi Hm E].
  destruct (conf_step All k c i t m Hc Hnd Hi Hm) as (r2 & t2 & l2 & k2 & E2 & _ & Hc2). rewrite E in E2. injection E2 as <- <- <-.
  by eapply IH.
Qed.

Lemma conf_nsteps All k c c' j : NoDup All → conf_good All k c → nsteps (pe_run U rq f) j c c' → j ≤ k.
Proof.
  intros Hnd Hc Hrun. revert k Hc. induction Hrun as [c|j c c1 c' Hs Hrun IH]; intros k Hc; [lia|].
  destruct Hs as [c i t m r' t' l Hi Hm E].
  destruct (conf_step All k c i t m Hc Hnd Hi Hm) as (r2 & t2 & l2 & k2 & E2 & -> & Hc2). rewrite E in E2. injection E2 as <- <- <-.
  apply IH in Hc2. lia.
Qed.

(** When all tasks have returned, all places were visited. *)
Lemma conf_done All k c : conf_good All k c → pe_done c → ∃ D, D ≡ₚ All ∧ state_good (pf_reg c) (pf_log c) D.
Proof.
  intros (Ls & D & Hts & Hp & Hst & _) Hd. exists D. split; [|done]. rewrite <- Hp. replace (concat Ls) with (@nil place); [by rewrite app_nil_r|].
  symmetry. apply concat_all_nil. apply Forall_lookup. intros i L HL. destruct (Forall2_lookup_r _ _ _ _ _ Hts HL) as (t & Ht & (_ & L1 & Hcur & ->)).
  unfold pe_done in Hd. rewrite Forall_lookup in Hd. rewrite (Hd _ _ Ht) in Hcur |- *. cbn in Hcur. subst L1. done.
Qed.

(** The places visited determine the rows, and the rows the registry. *)
Lemma same_rows hp1 hp2 : same_sizes hp1 → same_sizes hp2 → (∀ q, hrow hp1 q = hrow hp2 q) → hp1 = hp2.
Proof.
  intros H1 H2 Hq. apply list_eq_same_length with (length hp0).
  { symmetry. by eapply Forall2_length. }
  { transitivity (length hp0); [|by eapply Forall2_length]. symmetry. by eapply Forall2_length. }
  intros a [cs1 l1] [cs2 l2] _ Ha1 Ha2.
  destruct (Forall2_lookup_r _ _ _ _ _ H1 Ha1) as ([cs l] & Ha & E1 & L1). destruct (Forall2_lookup_r _ _ _ _ _ H2 Ha2) as (y & Ha' & E2 & L2).
  rewrite Ha in Ha'. injection Ha' as <-. cbn [fst snd] in *. subst cs1 cs2. f_equal.
  assert (length <$> l1 = length <$> l2) as EL by congruence.
  assert (length l1 = length l2) as EL0 by (apply (f_equal length) in EL; by rewrite !fmap_length in EL).
  apply list_eq_same_length with (length l1); [done|done|]. intros j rows1 rows2 _ Hj1 Hj2.
  apply list_eq. intros i. specialize (Hq (a, (j, i))). unfold hrow in Hq. cbn [fst snd] in Hq. rewrite Ha1, Ha2 in Hq. cbn [snd] in Hq.
  by rewrite (at_lookup _ _ _ _ Hj1), (at_lookup _ _ _ _ Hj2) in Hq.
Qed.

Lemma same_reg r1 r2 hp w1 w2 : rinv U s n r1 iss dd pend hp w1 → rinv U s n r2 iss dd pend hp w2 →
  rg_frame r0 r1 → rg_frame r0 r2 → r1 = r2.
Proof.
  intros Hr1 Hr2 [E1 F1] [E2 F2]. rewrite E1, E2. f_equal. apply list_eq_same_length with (length (rg_heap r0)).
  { symmetry. by eapply Forall2_length. }
  { transitivity (length (rg_heap r0)); [|by eapply Forall2_length]. symmetry. by eapply Forall2_length. }
  intros a ar1 ar2 _ Ha1 Ha2. destruct (Forall2_lookup_r _ _ _ _ _ F1 Ha1) as (ar & Ha & (Em1 & Eb1 & Ec1) & El1 & K1).
  destruct (Forall2_lookup_r _ _ _ _ _ F2 Ha2) as (ar' & Ha' & (Em2 & Eb2 & Ec2) & El2 & K2). rewrite Ha in Ha'. injection Ha' as <-.
  destruct (Forall2_lookup_l _ _ _ _ _ (si_heap _ _ _ _ (rv_st _ _ _ _ _ _ _ _ _ Hr1)) Ha1) as ([cs rowss] & Hx & R1). cbn [fst snd] in R1.
  destruct (Forall2_lookup_l _ _ _ _ _ (si_heap _ _ _ _ (rv_st _ _ _ _ _ _ _ _ _ Hr2)) Ha2) as (y & Hy & R2).
  rewrite Hx in Hy. injection Hy as <-. cbn [fst snd] in R2.
  assert (ar_chunks ar1 = ar_chunks ar2) as Ek.
  { apply list_eq_same_length with (length (ar_chunks ar)).
    { symmetry. by eapply Forall2_length. }
    { transitivity (length (ar_chunks ar)); [|by eapply Forall2_length]. symmetry. by eapply Forall2_length. }
    intros j k1 k2 _ Hk1 Hk2. destruct (Forall2_lookup_r _ _ _ _ _ K1 Hk1) as (k & Hk & S1 & M1 & L1 & O1).
    destruct (Forall2_lookup_r _ _ _ _ _ K2 Hk2) as (k' & Hk' & S2 & M2 & L2 & O2). rewrite Hk in Hk'. injection Hk' as <-.
    destruct (Forall2_lookup_l _ _ _ _ _ (ap_ks _ _ _ _ _ R1) Hk1) as (rows & Hj & C1).
    destruct (Forall2_lookup_l _ _ _ _ _ (ap_ks _ _ _ _ _ R2) Hk2) as (rows' & Hj' & C2). rewrite Hj in Hj'. injection Hj' as <-.
    assert (ck_mem k1 = ck_mem k2) as Emem.
    { apply map_eq. intros o. destruct (decide (o ∈ cells (ar_blocks ar) (ms_metas (ar_comps ar)) (ck_size k))) as [Ho|Ho];
        [|rewrite O1, O2 by done; done].
      apply elem_cells in Ho as (c & i & Hc & Hi & ->).
      assert (ms_metas (ar_comps ar) = cs) as Ecs by (rewrite <- Ec1; apply (ap_cs _ _ _ _ _ R1)). rewrite Ecs in Hc.
      destruct (lookup_lt_is_Some_2 rows i) as [x Hx']; [rewrite <- (cr_size _ _ _ _ _ _ _ C1), S1; done|].
      assert (full cs x) as Hf.
      { pose proof (rv_full _ _ _ _ _ _ _ _ _ Hr1 _ _ Hx) as Hfull. apply (fulls_rows cs _ _ _ Hfull Hj). by eapply elem_of_list_lookup_2. }
      destruct (rcell_live U x c Hf Hc) as [v Hv].
      pose proof (cr_mem _ _ _ _ _ _ _ C1 _ _ _ _ Hx' Hc Hv) as Q1. pose proof (cr_mem _ _ _ _ _ _ _ C2 _ _ _ _ Hx' Hc Hv) as Q2.
      rewrite Eb1 in Q1. rewrite Eb2 in Q2. congruence. }
    destruct k1, k2; cbn in *. congruence. }
  destruct ar1, ar2; cbn in *. congruence.
Qed.

Lemma state_unique r1 log1 D1 r2 log2 D2 : state_good r1 log1 D1 → state_good r2 log2 D2 → D1 ≡ₚ D2 →
  r1 = r2 ∧ log1 ≡ₚ log2.
Proof.
  intros (hp1 & w1 & Hr1 & F1 & S1 & Q1 & ->) (hp2 & w2 & Hr2 & F2 & S2 & Q2 & ->) HD. split; [|by rewrite HD].
  assert (hp1 = hp2) as <-.
  { apply same_rows; [done|done|]. intros q. rewrite Q1, Q2. destruct (decide (q ∈ D1)) as [Hq|Hq].
    - rewrite decide_True by (by rewrite <- HD). done.
    - rewrite decide_False by (by rewrite <- HD). done. }
  by eapply same_reg.
Qed.

(** The chunks of the view. *)
Definition pc_id (c : pchunk) : option nat * nat := (pc_arch c, pc_index c).

Lemma chunks_good : ∀ l, NoDup l.*2 → (∀ e, e ∈ l → ∃ a, e.2 = Some a ∧ is_Some (hp0 !! a)) →
  ∃ cs, pe_chunks U rq l r0 = (r0, Ok cs) ∧ Forall chunk_good cs ∧ NoDup (pc_id <$> cs) ∧ ∀ c, c ∈ cs → pc_arch c ∈ l.*2.
Proof.
  induction l as [|e l IH]; intros Hnd Hl.
  - exists []. split; [done|]. split; [done|]. split; [constructor|]. intros c Hc. by apply elem_of_nil in Hc.
  - cbn [fmap list_fmap] in Hnd. apply NoDup_cons in Hnd as [Hn Hnd].
    destruct (Hl e ltac:(by left)) as (a & He & [[cs rowss] Ha]).
    destruct (st_arch U s r0 hp0 a _ (rv_st _ _ _ _ _ _ _ _ _ Hr0) Ha) as (ar & Har & Hrep). cbn [fst snd] in Hrep.
    destruct (IH Hnd (λ e' He', Hl e' ltac:(by right))) as (cs' & E & Hg & Hnd' & Hin).
    cbn [pe_chunks]. rewrite He. rewrite (bind_ok _ _ _ _ _ (rg_arch_run _ _ _ Har)). rewrite (bind_ok _ _ _ _ _ E).
    rewrite (match_ok U HU rq s ar cs rowss Hrep). case_bool_decide as Hrq; [|].
    2:{ exists cs'. split; [done|]. split; [done|]. split; [done|]. intros c Hc. right. by apply Hin. }
    eexists. split; [reflexivity|]. split; [|split].
    + apply Forall_app. split; [|done]. apply Forall_forall. intros c Hc. apply elem_of_list_fmap in Hc as (j & -> & Hj%elem_of_seq).
      destruct (lookup_lt_is_Some_2 rowss j) as [rows Hrows]; [rewrite <- (ar_len U s ar cs rowss Hrep); lia|].
      exists a, cs, rowss, rows, ar. done.
    + rewrite fmap_app. apply NoDup_app. split; [|split; [|done]].
      * rewrite <- list_fmap_compose. apply NoDup_fmap_2; [|apply NoDup_seq]. intros i j E2. by injection E2.
      * intros q Hq Hq'. apply elem_of_list_fmap in Hq as (c & -> & Hc). apply elem_of_list_fmap in Hc as (j & -> & _).
        apply elem_of_list_fmap in Hq' as (c & E2 & Hc%Hin). injection E2 as E2 _. apply Hn. rewrite He, E2. done.
    + intros c [Hc|Hc]%elem_of_app; [|right; by apply Hin]. apply elem_of_list_fmap in Hc as (j & -> & _). cbn. rewrite He. left.
Qed.

Lemma places_nodup cs : NoDup (pc_id <$> cs) → NoDup (concat (cplaces <$> cs)).
Proof.
  intros Hnd. apply NoDup_concat.
  - intros i l Hi. rewrite list_lookup_fmap, fmap_Some in Hi. destruct Hi as (c & _ & ->). unfold cplaces. destruct (pc_arch c); [|constructor].
    apply NoDup_fmap_2; [|apply NoDup_seq]. intros ? ? E. congruence.
  - intros i j l l' q Hi Hj Hq Hq'. rewrite list_lookup_fmap, fmap_Some in Hi. destruct Hi as (c & Hc & ->).
    rewrite list_lookup_fmap, fmap_Some in Hj. destruct Hj as (c' & Hc' & ->).
    assert (∀ c, q ∈ cplaces c → pc_id c = (Some q.1, q.2.1)) as Hid.
    { clear. intros c Hq. unfold cplaces in Hq. destruct (pc_arch c) as [a|] eqn:Ea; [|by apply elem_of_nil in Hq].
      apply elem_of_list_fmap in Hq as (i & -> & _). unfold pc_id. by rewrite Ea. }
    apply (NoDup_lookup (pc_id <$> cs) i j (Some q.1, q.2.1)); [done|..]; rewrite list_lookup_fmap.
    + rewrite Hc. cbn. by rewrite (Hid c).
    + rewrite Hc'. cbn. by rewrite (Hid c').
Qed.

(** The beginning of par_each, for any split of the chunks. *)
Lemma conf_start ts cs : Forall (λ t, pt_cur t = None) ts → concat (pt_todo <$> ts) = cs → Forall chunk_good cs →
  ∃ k, conf_good (concat (cplaces <$> cs)) k (PConf ts r0 []).
Proof.
  intros Hn <- Hg. eexists. exists ((λ t, concat (cplaces <$> pt_todo t)) <$> ts), []. cbn [pf_tasks pf_reg pf_log].
  split; [|split; [|split; [exact state_start|reflexivity]]].
  - apply Forall2_fmap_r.  induction ts as [|t ts IH]; [constructor|].
    apply Forall_cons in Hn as [Hn1 Hn]. cbn [fmap list_fmap concat] in Hg. apply Forall_app in Hg as [Hg1 Hg].
    constructor; [|by apply IH]. split; [done|]. exists []. rewrite Hn1. done.
  - cbn [app]. clear. induction ts as [|t ts IH]; [done|]. cbn [fmap list_fmap concat]. rewrite fmap_app, concat_app. by rewrite <- IH.
Qed.

Lemma split_start nw (cs : list pchunk) : 0 < nw →
  let ts := match pf_batches nw (length cs) with
            | None => [PTask cs None] | Some bs => (λ b, PTask (subrange cs b) None) <$> bs end in
  Forall (λ t, pt_cur t = None) ts ∧ concat (pt_todo <$> ts) = cs.
Proof.
  intros Hnw. cbn. pose proof (C36_batches nw (length cs) Hnw) as Hb. destruct (pf_batches nw (length cs)) as [bs|].
  - destruct Hb as (_ & _ & Hc & _). split.
    + apply Forall_fmap. by apply Forall_true.
    + rewrite <- list_fmap_compose. change (pt_todo ∘ _) with (subrange cs). by rewrite (consecutive_concat _ _ _ Hc).
  - split; [by repeat constructor|]. cbn. by rewrite app_nil_r.
Qed.

(** No two tasks are in the same chunk. *)
Definition tchunks (t : ptask) : list pchunk :=
  (match pt_cur t with Some (c, _, _) => [c] | None => [] end) ++ pt_todo t.

Lemma step_chunks t m r r' t' l : pe_step U rq f t = Some m → m r = (r', Ok (t', l)) → sublist (tchunks t') (tchunks t).
Proof.
  destruct t as [todo [[[c ps] e]|]]; cbn [pe_step pt_cur pt_todo].
  - intros [= <-]. destruct (it_eqb ps e).
    + intros [= <- <- <-]. cbn. by apply sublist_cons.
    + unfold bind. destruct (on_arch _ _ r) as [r1 [x|?|]]; [|done|done]. intros [= <- <- <-]. done.
  - destruct todo as [|c todo]; [done|]. intros [= <-]. unfold bind at 1. destruct (on_arch _ _ r) as [r1 [x|?|]]; [|done|done].
    intros [= <- <- <-]. done.
Qed.

Lemma run_chunks c c' : rtc (pe_run U rq f) c c' → NoDup (pc_id <$> concat (tchunks <$> pf_tasks c)) →
  NoDup (pc_id <$> concat (tchunks <$> pf_tasks c')).
Proof.
  induction 1 as [c|c c1 c' Hs _ IH]; [done|]. intros Hnd. apply IH. destruct Hs as [c i t m r' t' l Hi Hm E]. cbn [pf_tasks].
  apply (step_chunks _ _ _ _ _ _ Hm) in E. eapply nodup_sublist; [|exact Hnd]. 
  rewrite <- (take_drop_middle _ _ _ Hi) at 2. rewrite insert_take_drop by (by eapply lookup_lt_Some).
  rewrite !fmap_app, !fmap_cons, !concat_app. cbn [concat]. rewrite !fmap_app.
  apply sublist_app; [done|]. apply sublist_app; [|done]. clear -E. induction E; cbn; [constructor|by constructor|by constructor].
Qed.

(** each is the execution by one task. *)
Lemma call_log ps log k : vw_call rq (λ _, f) log ps k =
  match vw_call rq (λ _, f) [] ps k with (k', Ok l) => (k', Ok (log ++ l)) | (k', Throw e) => (k', Throw e) | (k', UB) => (k', UB) end.
Proof.
  unfold vw_call, bind. destruct (it_deref ps k) as [k1 [xs|?|]]; [|done|done].
  match goal with |- context [forM ?a ?b k1] => destruct (forM a b k1) as [k2 [[]|?|]] end; done.
Qed.

Lemma put_id r (a j : nat) ar k : rg_heap r !! a = Some ar → ar_chunks ar !! j = Some k →
  rg_set_heap r (<[a := ar_with_chunks ar (<[j := k]> (ar_chunks ar))]> (rg_heap r)) = r.
Proof.
  intros Ha Hk. rewrite (list_insert_id (ar_chunks ar)) by done. destruct ar. unfold ar_with_chunks. cbn. by apply set_heap_id.
Qed.

Lemma on_inv {X} p j (m : M chunk X) r r' x : on_arch p (on_chunk j m) r = (r', Ok x) →
  ∃ a ar k k', p = Some a ∧ rg_heap r !! a = Some ar ∧ ar_chunks ar !! j = Some k ∧ m k = (k', Ok x) ∧
    r' = rg_set_heap r (<[a := ar_with_chunks ar (<[j := k']> (ar_chunks ar))]> (rg_heap r)).
Proof.
  unfold on_arch, on_chunk. destruct p as [a|]; [|done]. destruct (rg_heap r !! a) as [ar|] eqn:Ha; [|done].
  destruct (ar_chunks ar !! j) as [k|] eqn:Hk; [|done]. destruct (m k) as [k' o] eqn:E. intros [= <- ->]. by exists a, ar, k, k'.
Qed.

Lemma sim_rows c todo (a : nat) e : pc_arch c = Some a → ∀ fuel ps log k k' log' r ar,
  vw_rows U fuel rq (λ _, f) ps e log k = (k', Ok log') → rg_heap r !! a = Some ar → ar_chunks ar !! pc_index c = Some k →
  rtc (pe_run U rq f) (PConf [PTask todo (Some (c, ps, e))] r log)
    (PConf [PTask todo None] (rg_set_heap r (<[a := ar_with_chunks ar (<[pc_index c := k']> (ar_chunks ar))]> (rg_heap r))) log').
Proof.
  intros Ea. induction fuel as [|fuel IH]; intros ps log k k' log' r ar E Ha Hk; [done|]. cbn [vw_rows] in E.
  destruct (it_eqb ps e) eqn:Eq.
  - injection E as <- <-. rewrite put_id by done. apply rtc_once.
    rewrite <- (app_nil_r log) at 2.
    apply (PeRun U rq f (PConf [PTask todo (Some (c, ps, e))] r log) 0 (PTask todo (Some (c, ps, e))) (ret (PTask todo None, []))); [done| |done].
    cbn [pe_step pt_cur]. by rewrite Eq.
  - unfold bind at 1 in E. rewrite call_log in E.
    destruct (vw_call rq (λ _, f) [] ps k) as [k1 [l|?|]] eqn:E1; [|done|done].
    set (r1 := rg_set_heap r (<[a := ar_with_chunks ar (<[pc_index c := k1]> (ar_chunks ar))]> (rg_heap r))).
    eapply rtc_l.
    + eapply (PeRun U rq f (PConf [PTask todo (Some (c, ps, e))] r log) 0 (PTask todo (Some (c, ps, e))) _ r1); [done| |].
      { cbn [pe_step pt_cur]. by rewrite Eq. }
      rewrite Ea. cbn [pf_reg]. rewrite (bind_ok _ _ _ _ _ (on_arch_run _ _ _ _ _ _ Ha (on_chunk_run _ _ _ _ _ _ Hk E1))). reflexivity.
    + cbn [pf_tasks pf_log insert list_insert pt_todo].
      pose proof (lookup_lt_Some _ _ _ Ha). pose proof (lookup_lt_Some _ _ _ Hk).
      assert (rg_heap r1 !! a = Some (ar_with_chunks ar (<[pc_index c := k1]> (ar_chunks ar)))) as Ha1 by (by apply list_lookup_insert).
      assert (ar_chunks (ar_with_chunks ar (<[pc_index c := k1]> (ar_chunks ar))) !! pc_index c = Some k1) as Hk1 by (by apply list_lookup_insert).
      specialize (IH (it_incr U rq ps) (log ++ l) k1 k' log' r1 _ E Ha1 Hk1).
      revert IH. unfold r1, rg_set_heap, ar_with_chunks.
      cbn [rg_heap rg_pool rg_table rg_search rg_locs ar_chunks ar_max ar_blocks ar_comps ar_lost]. by rewrite !list_insert_insert.
Qed.

Lemma sim_chunks p bl todo : ∀ js log log' r r', vw_chunks U p bl rq (λ _, f) js log r = (r', Ok log') →
  rtc (pe_run U rq f) (PConf [PTask ((PChunk p bl <$> js) ++ todo) None] r log) (PConf [PTask todo None] r' log').
Proof.
  induction js as [|j js IH]; intros log log' r r' E; [by injection E as <- <-|]. cbn [vw_chunks] in E. unfold bind at 1 in E.
  destruct (on_arch p _ r) as [r1 [l|?|]] eqn:E1; [|done|done]. apply IH in E. etransitivity; [|exact E].
  apply on_inv in E1 as (a & ar & k & k' & -> & Ha & Hk & E1 & ->).
  unfold vw_chunk in E1. rewrite (bind_ok _ _ k k k) in E1 by done.
  assert (∀ rq i k, (it_new bl rq i k).1 = k) as Hnew.
  { assert (∀ c i (k k' : chunk) x, fetch_pointer bl c i k = (k', x) → k' = k) as fetch_state.
    { clear. intros c i k k' x. unfold fetch_pointer. destruct (sm_at bl c) as [[b|]|]; by intros [= <- _]. }
    clear -fetch_state. intros l0. induction l0 as [|q l0 IH']; intros i k; [done|]. cbn [it_new].
    unfold bind. destruct (fetch_pointer bl (vr_cid q) i k) as [k1 [x|?|]] eqn:E; cbn [fst].
    - assert (k1 = k) as -> by (by eapply fetch_state). specialize (IH' i k). destruct (it_new bl l0 i k) as [k2 [?|?|]]; done.
    - by eapply fetch_state.
    - by eapply fetch_state. }
  pose proof (Hnew rq 0 k) as Hb. pose proof (Hnew rq (ck_size k) k) as He.
  destruct (it_new bl rq 0 k) as [k1 [b|?|]] eqn:Eb; cbn in Hb; subst k1; unfold bind at 1 in E1; rewrite Eb in E1; [|done|done].
  destruct (it_new bl rq (ck_size k) k) as [k1 [e|?|]] eqn:Ee; cbn in He; subst k1; unfold bind at 1 in E1; rewrite Ee in E1; [|done|done].
  set (c := PChunk (Some a) bl j). eapply rtc_l.
  - eapply (PeRun U rq f (PConf [PTask ((PChunk (Some a) bl <$> j :: js) ++ todo) None] r log) 0 _ _ r); [done|done|].
    cbn [pf_reg pc_arch pc_index pc_blocks].
    assert ((let! k := get in let! b := it_new bl rq 0 in let! e := it_new bl rq (ck_size k) in ret (b, e)) k = (k, Ok (b, e))) as Ebe.
    { rewrite (bind_ok _ _ k k k) by done. by rewrite (bind_ok _ _ _ _ _ Eb), (bind_ok _ _ _ _ _ Ee). }
    pose proof (on_arch_run _ _ _ _ _ _ Ha (on_chunk_run _ _ _ _ _ _ Hk Ebe)) as Eon. rewrite put_id in Eon by done.
    rewrite (bind_ok _ _ _ _ _ Eon). reflexivity.
  - cbn [pf_tasks pf_log insert list_insert fst snd]. rewrite app_nil_r. by apply (sim_rows c _ a e eq_refl (S (ck_size k)) b log k k' l r ar).
Qed.

Lemma sim_archs All k : NoDup All → ∀ l cs todo log log' r r',
  pe_chunks U rq l r0 = (r0, Ok cs) → conf_good All k (PConf [PTask (cs ++ todo) None] r log) →
  vw_archs U rq (λ _, f) l log r = (r', Ok log') →
  rtc (pe_run U rq f) (PConf [PTask (cs ++ todo) None] r log) (PConf [PTask todo None] r' log').
Proof.
  intros Hnd l. revert k. induction l as [|e l IH]; intros k cs todo log log' r r' Ecs Hc E; [injection Ecs as <-; by injection E as <- <-|].
  cbn [pe_chunks vw_archs] in Ecs, E. destruct e.2 as [a|] eqn:Ea; [|done].
  destruct (rg_heap r0 !! a) as [ar0|] eqn:Ha; [|unfold rg_arch, on_arch, bind at 1 in Ecs; by rewrite Ha in Ecs].
  rewrite (bind_ok _ _ _ _ _ (rg_arch_run _ _ _ Ha)) in Ecs. unfold bind at 1 in Ecs.
  destruct (pe_chunks U rq l r0) as [r1 [cs1|?|]] eqn:E1; [|done|done]. injection Ecs as -> <-.
  pose proof Hc as (Ls & D & _ & _ & (hp & w & Hr & Hfr & _) & _). cbn [pf_reg] in Hr, Hfr.
  destruct (frame_arch r a ar0 Hfr Ha) as (ar & Ha' & (Em & Eb & Ec) & _ & Fks).
  rewrite (bind_ok _ _ _ _ _ (rg_arch_run _ _ _ Ha')) in E.
  assert (vw_match U ar = vw_match U ar0) as Emt by (unfold vw_match, ar_contains; by rewrite Ec).
  rewrite Emt, Eb, <- (Forall2_length _ _ _ Fks) in E. unfold bind at 1 in E.
  destruct (forallb (vw_match U ar0) (vr_cid <$> rq)).
  - destruct (vw_chunks U (Some a) (ar_blocks ar0) rq (λ _, f) _ log r) as [r1 [log1|?|]] eqn:E2; [|done|done].
    rewrite <- app_assoc in Hc |- *. pose proof (sim_chunks _ _ (cs1 ++ todo) _ _ _ _ _ E2) as Hrun.
    destruct (conf_run All k _ _ Hnd Hc Hrun) as [k1 Hc1]. etransitivity; [exact Hrun|]. by eapply IH.
  - cbn in E. cbn [app] in Hc |- *. by eapply IH.
Qed.

Lemma archs_nonnull : ∀ l log r r' log', vw_archs U rq (λ _, f) l log r = (r', Ok log') → ∀ e, e ∈ l → e.2 ≠ None.
Proof.
  clear. induction l as [|e l IH]; intros log r r' log' E e' He'; [by apply elem_of_nil in He'|]. cbn [vw_archs] in E.
  destruct e.2 as [a|] eqn:Ea; [|done]. unfold bind at 1 in E. destruct (rg_arch (Some a) r) as [r1 [ar|?|]]; [|done|done].
  unfold bind at 1 in E. match type of E with context [(if ?b then ?x else ?y) r1] => destruct ((if b then x else y) r1) as [r2 [log1|?|]] end; [|done|done].
  apply elem_of_cons in He' as [->|He']; [congruence|]. by eapply IH.
Qed.
End run.

(** par_each against each. *)
Lemma par_each_spec rq f s n iss dd pend r hp w nw r1 log1 : VReq (u_ent U) true ∉ rq → rq ≠ [] →
  rinv U s n r iss dd pend hp w → 0 < nw → rg_each U rq (λ _, f) r = (r1, Ok log1) →
  ∃ ts k, pe_start U rq nw r = (r, Ok ts) ∧
    (∀ c j, nsteps (pe_run U rq f) j (PConf ts r []) c → j ≤ k) ∧
    ∀ c, rtc (pe_run U rq f) (PConf ts r []) c →
      (∀ (i : nat) t m, pf_tasks c !! i = Some t → pe_step U rq f t = Some m → ∃ r' x, m (pf_reg c) = (r', Ok x)) ∧
      (pe_done c → pf_reg c = r1 ∧ pf_log c ≡ₚ log1) ∧
      NoDup (pc_id <$> concat (tchunks <$> pf_tasks c)).
Proof.
  intros Hent Hne Hr Hnw E. unfold rg_each in E. rewrite (bind_ok _ _ r r r) in E by done.
  pose proof (archs_nonnull rq f _ _ _ _ _ E) as Hnn.
  destruct (entries_ok U s r hp (rv_st _ _ _ _ _ _ _ _ _ Hr)) as [Hnd Hall]. rewrite filter_all in Hnd by done.
  destruct (chunks_good rq s n iss dd pend r hp w Hr (ht_iter (rg_table r)) Hnd) as (cs & Ecs & Hg & Hids & _).
  { intros e He. by apply Hall, Hnn. }
  pose proof (places_nodup hp cs Hids) as HndA. set (All := concat (cplaces hp <$> cs)) in *.
  destruct (split_start nw cs Hnw) as [Hcur Hconc].
  set (ts := match pf_batches nw (length cs) with
            | None => [PTask cs None] | Some bs => (λ b, PTask (subrange cs b) None) <$> bs end) in *.
  destruct (conf_start rq f s n iss dd pend r hp w Hr ts cs Hcur Hconc Hg) as [k Hk].
  assert (Forall (λ t, pt_cur t = None) [PTask cs None]) as Hcur1 by (by repeat constructor).
  assert (concat (pt_todo <$> [PTask cs None]) = cs) as Hconc1 by (cbn; by rewrite app_nil_r).
  destruct (conf_start rq f s n iss dd pend r hp w Hr _ cs Hcur1 Hconc1 Hg) as [k1 Hk1].
  exists ts, k. split; [|split].
  - unfold pe_start. rewrite (bind_ok _ _ r r r) by done. by rewrite (bind_ok _ _ _ _ _ Ecs).
  - intros c j Hrun. by eapply conf_nsteps.
  - intros c Hrun. destruct (conf_run rq Hent Hne f s n iss dd pend r hp w Hr All k _ _ HndA Hk Hrun) as [k2 Hc]. split; [|split].
    + intros i t m Hi Hm. destruct (conf_step rq Hent Hne f s n iss dd pend r hp w Hr All k2 c i t m Hc HndA Hi Hm) as (r' & t' & l & _ & E2 & _). eauto.
    + intros Hd. edestruct conf_done as (D & HD & Hst); [exact Hc|exact Hd|].
      pose proof (sim_archs rq Hent Hne f s n iss dd pend r hp w Hr All k1 HndA (ht_iter (rg_table r)) cs [] [] log1 r r1 Ecs) as Hsim.
      rewrite app_nil_r in Hsim. specialize (Hsim Hk1 E).
      destruct (conf_run rq Hent Hne f s n iss dd pend r hp w Hr All k1 _ _ HndA Hk1 Hsim) as [k3 Hc3].
      edestruct conf_done as (D3 & HD3 & Hst3); [exact Hc3|by repeat constructor|].
      eapply (state_unique); [exact Hst|exact Hst3|]. by rewrite HD, HD3.
    + eapply run_chunks; [exact Hrun|]. cbn [pf_tasks].
      replace (concat (tchunks <$> ts)) with cs; [done|]. rewrite <- Hconc. f_equal. apply list_fmap_ext. intros i t Hi.
      rewrite Forall_lookup in Hcur. unfold tchunks. by rewrite (Hcur _ _ Hi).
Qed.
End par_each.
