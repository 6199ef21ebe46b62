(** The storage of a registry: archetypes, their table and the places of rows. *)
From Verif Require Import Base Bits Layout PropLayout HandlePool SparseMap SparseMapProofs HashTable HashTableProofs HashTableMap
  Bitset BitsetProofs ComponentSet ComponentSetProofs Chunk ChunkProofs Archetype ArchetypeProofs Registry PropHash.
Ltac Zify.zify_post_hook ::= Z.div_mod_to_equations.

Notation store := (list (list cid * list (list row))).
Notation place := (nat * (nat * nat))%type.

(** The row at a place. *)
Definition hrow (hp : store) (q : place) : option row :=
  match hp !! q.1 with Some x => at_ x.2 q.2 | None => None end.

Definition loc_of (q : place) : loc := Loc (Some q.1) q.2.1 q.2.2.

Lemma loc_of_inj q q' : loc_of q = loc_of q' → q = q'.
Proof. destruct q as [a [c i]], q' as [a' [c' i']]. unfold loc_of. cbn. by intros [= -> -> ->]. Qed.

(** Rows, locations by entity id, and the components of every entity belong together. *)
Record lw (R : place → option row) (locs : gmap N loc) (w : gmap handle (gmap cid val)) : Prop := {
  lw_locs : ∀ id l, locs !! id = Some l ↔ ∃ q r, loc_of q = l ∧ R q = Some r ∧ h_id r.1 = id;
  lw_world : ∀ h m, w !! h = Some m ↔ ∃ q, R q = Some (h, m) }.

Lemma lw_ext R R' locs w : (∀ q, R q = R' q) → lw R locs w → lw R' locs w.
Proof.
  intros E []. split.
  - intros id l. rewrite lw_locs0. setoid_rewrite E. done.
  - intros h m. rewrite lw_world0. setoid_rewrite E. done.
Qed.

Section lw.
Context {R : place → option row} {locs : gmap N loc} {w : gmap handle (gmap cid val)} (H : lw R locs w).

Lemma lw_place q r : R q = Some r → locs !! h_id r.1 = Some (loc_of q).
Proof. intros Hq. apply (lw_locs _ _ _ H). by exists q, r. Qed.

Lemma lw_same_id q q' r r' : R q = Some r → R q' = Some r' → h_id r.1 = h_id r'.1 → q = q'.
Proof. intros H1%lw_place H2%lw_place E. rewrite E, H2 in H1. injection H1 as H1. symmetry. apply loc_of_inj. unfold loc_of. congruence. Qed.

Lemma lw_insert R' q h m : R q = None → (∀ q', R' q' = if decide (q' = q) then Some (h, m) else R q') →
  locs !! h_id h = None → lw R' (<[h_id h := loc_of q]> locs) (<[h := m]> w).
Proof.
  intros Hq HR Hid.
  assert (∀ q' r, R q' = Some r → h_id r.1 ≠ h_id h) as Hne.
  { intros q' r Hr E. apply lw_place in Hr. rewrite E, Hid in Hr. done. }
  split.
  - intros id l. split.
    + intros [[<- <-]|[Hn Hl]]%lookup_insert_Some.
      * exists q, (h, m). rewrite HR. rewrite decide_True by done. done.
      * apply (lw_locs _ _ _ H) in Hl as (q' & r & <- & Hr & <-). exists q', r. split; [done|]. split; [|done].
        rewrite HR. case_decide; [|done]. subst q'. congruence.
    + intros (q' & r & <- & Hr & <-). rewrite HR in Hr. case_decide as E.
      * subst q'. injection Hr as <-. apply lookup_insert.
      * rewrite lookup_insert_ne by (intros E'; by eapply Hne). by apply lw_place.
  - intros h' m'. split.
    + intros [[<- <-]|[Hn Hl]]%lookup_insert_Some.
      * exists q. rewrite HR. by rewrite decide_True.
      * apply (lw_world _ _ _ H) in Hl as [q' Hq']. exists q'. rewrite HR. case_decide; [|done]. subst q'. congruence.
    + intros [q' Hq']. rewrite HR in Hq'. case_decide as E.
      * injection Hq' as -> ->. apply lookup_insert.
      * rewrite lookup_insert_ne; [apply (lw_world _ _ _ H); by exists q'|].
        intros ->. by eapply (Hne q' (h', m')).
Qed.

Lemma lw_erase R' q h m : R q = Some (h, m) → (∀ q', R' q' = if decide (q' = q) then None else R q') →
  lw R' (delete (h_id h) locs) (delete h w).
Proof.
  intros Hq HR. split.
  - intros id l. rewrite lookup_delete_Some. split.
    + intros [Hn Hl]. apply (lw_locs _ _ _ H) in Hl as (q' & r & <- & Hr & <-). exists q', r. split; [done|]. split; [|done].
      rewrite HR. case_decide; [|done]. subst q'. rewrite Hq in Hr. injection Hr as <-. done.
    + intros (q' & r & <- & Hr & <-). rewrite HR in Hr. case_decide as E; [done|]. split; [|by apply lw_place].
      intros E'. apply E. by eapply lw_same_id.
  - intros h' m'. rewrite lookup_delete_Some. split.
    + intros [Hn [q' Hq']%(lw_world _ _ _ H)]. exists q'. rewrite HR. case_decide; [|done]. subst q'. congruence.
    + intros [q' Hq']. rewrite HR in Hq'. case_decide as E; [done|]. split; [|apply (lw_world _ _ _ H); by exists q'].
      intros <-. apply E. by eapply lw_same_id.
Qed.

Lemma lw_erase_move R' q h m q2 r2 : R q = Some (h, m) → R q2 = Some r2 → q2 ≠ q →
  (∀ q', R' q' = if decide (q' = q) then Some r2 else if decide (q' = q2) then None else R q') →
  lw R' (<[h_id r2.1 := loc_of q]> (delete (h_id h) locs)) (delete h w).
Proof.
  intros Hq Hq2 Hne HR. split.
  - intros id l. rewrite lookup_insert_Some, lookup_delete_Some. split.
    + intros [[<- <-]|(Hn & Hn2 & Hl)].
      * exists q, r2. rewrite HR. rewrite decide_True by done. done.
      * apply (lw_locs _ _ _ H) in Hl as (q' & r & <- & Hr & <-). exists q', r. split; [done|]. split; [|done].
        rewrite HR. rewrite decide_False by (intros ->; rewrite Hq in Hr; injection Hr as <-; done).
        rewrite decide_False; [done|]. intros ->. rewrite Hq2 in Hr. injection Hr as <-. done.
    + intros (q' & r & <- & Hr & <-). rewrite HR in Hr. case_decide as E; [|case_decide as E2; [done|]].
      * subst q'. injection Hr as <-. by left.
      * right. split; [|split; [|by apply lw_place]]; intros E'; [apply E2|apply E]; by eapply lw_same_id.
  - intros h' m'. rewrite lookup_delete_Some. split.
    + intros [Hn [q' Hq']%(lw_world _ _ _ H)]. destruct (decide (q' = q2)) as [->|].
      * exists q. rewrite HR, decide_True by done. congruence.
      * exists q'. rewrite HR. rewrite decide_False by (intros ->; congruence). by rewrite decide_False.
    + intros [q' Hq']. rewrite HR in Hq'. case_decide as E; [|case_decide as E2; [done|]].
      * injection Hq' as ->. split; [|apply (lw_world _ _ _ H); by exists q2].
        intros ->. apply Hne. by eapply lw_same_id.
      * split; [|apply (lw_world _ _ _ H); by exists q'].
        intros <-. apply E. by eapply lw_same_id.
Qed.

Lemma lw_update R' q h m m' : R q = Some (h, m) → (∀ q', R' q' = if decide (q' = q) then Some (h, m') else R q') →
  lw R' locs (<[h := m']> w).
Proof.
  intros Hq HR. split.
  - intros id l. rewrite (lw_locs _ _ _ H). split.
    + intros (q' & r & <- & Hr & <-). destruct (decide (q' = q)) as [->|].
      * exists q, (h, m'). rewrite HR, decide_True by done. split; [done|]. split; [done|]. rewrite Hq in Hr. by injection Hr as <-.
      * exists q', r. rewrite HR, decide_False by done. done.
    + intros (q' & r & <- & Hr & <-). rewrite HR in Hr. case_decide.
      * subst. injection Hr as <-. by exists q, (h, m).
      * by exists q', r.
  - intros h' m''. rewrite lookup_insert_Some. split.
    + intros [[<- <-]|[Hn [q' Hq']%(lw_world _ _ _ H)]].
      * exists q. by rewrite HR, decide_True.
      * exists q'. rewrite HR. case_decide; [|done]. subst. congruence.
    + intros [q' Hq']. rewrite HR in Hq'. case_decide as E.
      * injection Hq' as -> ->. by left.
      * right. split; [|apply (lw_world _ _ _ H); by exists q']. intros <-. apply E. by eapply lw_same_id.
Qed.
End lw.

(** Store predicates. *)
Definition fullhp (hp : store) : Prop := ∀ (a : nat) x, hp !! a = Some x → fulls x.1 x.2.
Definition nohole (hp : store) : Prop := ∀ (a : nat) x, hp !! a = Some x → ¬ hole x.2.
Definition le2 (hp : store) : Prop := ∀ (a : nat) x, hp !! a = Some x → length x.2 ≤ 2.

(** The store with possibly one more, empty archetype. *)
Definition hpe (hp hp' : store) : Prop := hp' = hp ∨ ∃ cs, hp' = hp ++ [(cs, [[]])].

Lemma hpe_lookup hp hp' (a : nat) x : hpe hp hp' → hp !! a = Some x → hp' !! a = Some x.
Proof. intros [->|[cs ->]] Ha; [done|]. by apply lookup_app_l_Some. Qed.

Lemma hpe_inv hp hp' (a : nat) x : hpe hp hp' → hp' !! a = Some x → hp !! a = Some x ∨ x.2 = [[]].
Proof.
  intros [->|[cs ->]] Ha; [by left|]. apply lookup_app_Some in Ha as [Ha|[_ [_ <-]%list_lookup_singleton_Some]]; [by left|by right].
Qed.

Lemma hpe_hrow hp hp' q : hpe hp hp' → hrow hp' q = hrow hp q.
Proof.
  intros He. unfold hrow. destruct (hp !! q.1) as [x|] eqn:E; [by rewrite (hpe_lookup _ _ _ _ He E)|].
  destruct (hp' !! q.1) as [x|] eqn:E'; [|done]. destruct (hpe_inv _ _ _ _ He E') as [?|E2]; [congruence|].
  rewrite E2. unfold at_. destruct q as [a [[|c] i]]; cbn; done.
Qed.

Lemma hpe_full hp hp' : hpe hp hp' → fullhp hp → fullhp hp'.
Proof.
  intros He Hf a x Ha. destruct (hpe_inv _ _ _ _ He Ha) as [?|E]; [by eapply Hf|]. rewrite E.
  intros [[|c] i] r; cbn; done.
Qed.
Lemma hpe_nohole hp hp' : hpe hp hp' → nohole hp → nohole hp'.
Proof. intros He Hf a x Ha. destruct (hpe_inv _ _ _ _ He Ha) as [?|E]; [by eapply Hf|]. rewrite E. intros [_ ?]. cbn in *. lia. Qed.
Lemma hpe_le2 hp hp' : hpe hp hp' → le2 hp → le2 hp'.
Proof. intros He Hf a x Ha. destruct (hpe_inv _ _ _ _ He Ha) as [?|E]; [by eapply Hf|]. rewrite E. cbn. lia. Qed.

Lemma hrow_Some hp q r : hrow hp q = Some r → ∃ x, hp !! q.1 = Some x ∧ at_ x.2 q.2 = Some r.
Proof. unfold hrow. destruct (hp !! q.1) as [x|]; [|done]. eauto. Qed.

Lemma hrow_put hp a cs rowss rowss' q : hp !! a = Some (cs, rowss) →
  hrow (<[a := (cs, rowss')]> hp) q = if decide (q.1 = a) then at_ rowss' q.2 else hrow hp q.
Proof.
  intros Ha. unfold hrow. case_decide as E.
  - rewrite E, list_lookup_insert by (by eapply lookup_lt_Some). done.
  - by rewrite list_lookup_insert_ne by done.
Qed.

Lemma hrow_inserted hp a cs rowss p r rowss' : hp !! a = Some (cs, rowss) → inserted rowss p r rowss' →
  hrow hp (a, p) = None ∧
  ∀ q, hrow (<[a := (cs, rowss')]> hp) q = if decide (q = (a, p)) then Some r else hrow hp q.
Proof.
  intros Ha [Hn Hi]. split; [unfold hrow; cbn [fst]; by rewrite Ha|].
  intros [a' p']. rewrite (hrow_put _ _ _ _ _ _ Ha). cbn [fst snd]. case_decide as E.
  - subst a'. rewrite Hi. case_decide as E.
    + subst. by rewrite decide_True.
    + rewrite decide_False by congruence. unfold hrow. cbn [fst snd]. by rewrite Ha.
  - by rewrite decide_False by congruence.
Qed.

Lemma hrow_alter hp a cs rowss p r0 r : hp !! a = Some (cs, rowss) → at_ rowss p = Some r0 →
  ∀ q, hrow (<[a := (cs, alter (<[p.2 := r]>) p.1 rowss)]> hp) q = if decide (q = (a, p)) then Some r else hrow hp q.
Proof.
  intros Ha Hp [a' p']. rewrite (hrow_put _ _ _ _ _ _ Ha). cbn [fst snd]. case_decide as E.
  - subst a'. rewrite (at_put _ _ _ _ _ Hp). case_decide as E.
    + subst. by rewrite decide_True.
    + rewrite decide_False by congruence. unfold hrow. cbn [fst snd]. by rewrite Ha.
  - by rewrite decide_False by congruence.
Qed.

(** Erasing a row, as a change of rows and locations. *)
Lemma lw_erased hp a cs rowss p h m rowss' moved locs w : hp !! a = Some (cs, rowss) → at_ rowss p = Some (h, m) →
  erased rowss p rowss' moved → lw (hrow hp) locs w →
  lw (hrow (<[a := (cs, rowss')]> hp))
     (match moved with Some g => <[h_id g := loc_of (a, p)]> (delete (h_id h) locs) | None => delete (h_id h) locs end)
     (delete h w) ∧
  match moved with Some g => h_id g ≠ h_id h ∧ is_Some (locs !! h_id g) | None => True end.
Proof.
  intros Ha Hp He H.
  assert (hrow hp (a, p) = Some (h, m)) as Hq by (unfold hrow; cbn [fst snd]; by rewrite Ha).
  destruct moved as [g|]; cbn [erased] in He.
  - destruct He as (p2 & r2 & Hne & Hp2 & <- & Hat).
    assert (hrow hp (a, p2) = Some r2) as Hq2 by (unfold hrow; cbn [fst snd]; by rewrite Ha).
    split; [|split].
    + eapply lw_erase_move; [done|done|done| |].
      { congruence. }
      intros [a' p']. rewrite (hrow_put _ _ _ _ _ _ Ha). cbn [fst snd]. case_decide as E.
      * subst a'. rewrite Hat. case_decide as E1; [subst; by rewrite decide_True|].
        rewrite (decide_False (P := (a, p') = (a, p))) by congruence.
        case_decide as E2; [subst; by rewrite decide_True|].
        rewrite (decide_False (P := (a, p') = (a, p2))) by congruence. unfold hrow. cbn [fst snd]. by rewrite Ha.
      * by rewrite !decide_False by congruence.
    + intros E. assert ((a, p2) = (a, p)) as E2 by (by eapply (lw_same_id H)). congruence.
    + rewrite (lw_place H _ _ Hq2). eauto.
  - split; [|done]. eapply lw_erase; [done|done|].
    intros [a' p']. rewrite (hrow_put _ _ _ _ _ _ Ha). cbn [fst snd]. case_decide as E.
    + subst a'. rewrite He. case_decide as E1; [subst; by rewrite decide_True|].
      rewrite decide_False by congruence. unfold hrow. cbn [fst snd]. by rewrite Ha.
    + by rewrite decide_False by congruence.
Qed.

Lemma erased_full cs rowss p rowss' moved : fulls cs rowss → erased rowss p rowss' moved → fulls cs rowss'.
Proof.
  intros Hf He q r Hq. destruct moved as [g|]; cbn [erased] in He.
  - destruct He as (p2 & r2 & Hne & Hp2 & <- & Hat). rewrite Hat in Hq.
    case_decide; [injection Hq as <-; by eapply Hf|]. case_decide; [done|]. by eapply Hf.
  - rewrite He in Hq. case_decide; [done|]. by eapply Hf.
Qed.

Lemma inserted_full cs rowss p r rowss' : fulls cs rowss → full cs r → inserted rowss p r rowss' → fulls cs rowss'.
Proof. intros Hf Hr [_ Hi] q r' Hq. rewrite Hi in Hq. case_decide; [by injection Hq as <-|by eapply Hf]. Qed.

Lemma full_put hp a cs rowss rowss' : fullhp hp → hp !! a = Some (cs, rowss) → fulls cs rowss' →
  fullhp (<[a := (cs, rowss')]> hp).
Proof.
  intros Hf Ha Hf' b x Hb. apply list_lookup_insert_Some in Hb as [(-> & <- & _)|[_ Hb]]; [done|by eapply Hf].
Qed.
Lemma nohole_put hp a x : nohole hp → ¬ hole x.2 → nohole (<[a := x]> hp).
Proof. intros Hf Hx b y Hb. apply list_lookup_insert_Some in Hb as [(-> & <- & _)|[_ Hb]]; [done|by eapply Hf]. Qed.

Lemma fold_set_canon (cs : list cid) b : bs_canon b → bs_canon (fold_left (λ b c, bs_set b c true) cs b).
Proof. revert b. induction cs as [|c cs IH]; intros b Hb; [done|]. cbn. apply IH. by apply set_true_canon. Qed.
Lemma fold_set_test (cs : list cid) b p : bs_test (fold_left (λ b c, bs_set b c true) cs b) p = bs_test b p || bool_decide (p ∈ cs).
Proof.
  revert b. induction cs as [|c cs IH]; intros b; [cbn; by rewrite orb_false_r|]. cbn [fold_left]. rewrite IH, set_true_test.
  destruct (decide (p = c)) as [->|Hne].
  - rewrite (bool_decide_true (c = c)) by done. rewrite (bool_decide_true (c ∈ c :: cs)) by left. by destruct (bs_test b c).
  - rewrite (bool_decide_ext (p ∈ c :: cs) (p ∈ cs)) by set_solver. by rewrite (bool_decide_false (p = c)) by done.
Qed.

Section store.
Context (U : universe).
Hypothesis HU : u_wf U.

(** The storage invariant. *)
Record st_inv (s : bool) (r : registry) (hp : store) : Prop := {
  si_heap : Forall2 (λ a x, ar_repr U s a x.1 x.2) (rg_heap r) hp;
  si_ent : ∀ (a : nat) x, hp !! a = Some x → u_ent U ∉ x.1;
  si_lay : ∀ (a : nat) x, hp !! a = Some x → is_Some (get_max_size (u_type U <$> x.1));
  si_twf : ht_wf bs_hash (rg_table r);
  si_t1 : ∀ key a, ht_abs (rg_table r) !! key = Some (Some a) →
     ∃ ar, rg_heap r !! a = Some ar ∧ ms_ids (ar_comps ar) = key;
  si_t2 : ∀ (a : nat) ar, rg_heap r !! a = Some ar → ht_abs (rg_table r) !! ms_ids (ar_comps ar) = Some (Some a) }.

Lemma st_arch s r hp (a : nat) x : st_inv s r hp → hp !! a = Some x →
  ∃ ar, rg_heap r !! a = Some ar ∧ ar_repr U s ar x.1 x.2.
Proof. intros Hs Ha. destruct (Forall2_lookup_r _ _ _ _ _ (si_heap _ _ _ Hs) Ha) as (ar & ? & ?). eauto. Qed.

Lemma st_weaken s r hp : st_inv s r hp → st_inv false r hp.
Proof.
  intros []. split; try done. eapply Forall2_impl; [done|]. intros a x. apply ar_repr_weaken.
Qed.

(** Fields the storage does not depend on. *)
Lemma st_frame s r hp p l b : st_inv s r hp → st_inv s (Registry p (rg_heap r) (rg_table r) b l) hp.
Proof. intros []. by split. Qed.

(** Replacing the contents of one archetype. *)
Lemma st_put s r hp (a : nat) ar ar' cs rowss rowss' : st_inv s r hp → rg_heap r !! a = Some ar → hp !! a = Some (cs, rowss) →
  same_arch ar ar' → ar_repr U s ar' cs rowss' →
  st_inv s (rg_set_heap r (<[a := ar']> (rg_heap r))) (<[a := (cs, rowss')]> hp).
Proof.
  intros [] Ha Hx (_ & _ & Ec) Hr. split; cbn [rg_set_heap rg_heap rg_table].
  - by apply Forall2_insert.
  - intros b x [(-> & <- & _)|[_ Hb]]%list_lookup_insert_Some; [|by eapply si_ent0]. cbn [fst]. by apply (si_ent0 _ _ Hx).
  - intros b x [(-> & <- & _)|[_ Hb]]%list_lookup_insert_Some; [|by eapply si_lay0]. cbn [fst]. by apply (si_lay0 _ _ Hx).
  - done.
  - intros key b Hk. destruct (si_t3 key b Hk) as (ar0 & Hb & Hid). destruct (decide (b = a)) as [->|].
    + exists ar'. rewrite list_lookup_insert by (by eapply lookup_lt_Some). split; [done|]. rewrite Ec. congruence.
    + exists ar0. by rewrite list_lookup_insert_ne.
  - intros b x [(-> & <- & _)|[_ Hb]]%list_lookup_insert_Some; [|by apply si_t4]. rewrite Ec. by apply si_t4.
Qed.

Lemma on_arch_run {X} r (a : nat) ar (m : M archetype X) ar' o : rg_heap r !! a = Some ar → m ar = (ar', o) →
  on_arch (Some a) m r = (rg_set_heap r (<[a := ar']> (rg_heap r)), o).
Proof. intros Ha Hm. unfold on_arch. by rewrite Ha, Hm. Qed.

Lemma set_heap_id r (a : nat) ar : rg_heap r !! a = Some ar → rg_set_heap r (<[a := ar]> (rg_heap r)) = r.
Proof. intros Ha. unfold rg_set_heap. rewrite list_insert_id by done. by destruct r. Qed.

Lemma on_arch_same {X} r (a : nat) ar (m : M archetype X) o : rg_heap r !! a = Some ar → m ar = (ar, o) →
  on_arch (Some a) m r = (r, o).
Proof. intros Ha Hm. rewrite (on_arch_run _ _ _ _ _ _ Ha Hm). by rewrite set_heap_id. Qed.

Lemma rg_arch_run r (a : nat) ar : rg_heap r !! a = Some ar → rg_arch (Some a) r = (r, Ok ar).
Proof. intros Ha. unfold rg_arch. by eapply on_arch_same. Qed.

(** No entry of the table is a null pointer. *)
Definition nonull (r : registry) : Prop := ∀ key, ht_abs (rg_table r) !! key ≠ Some None.

(** Same set of components. *)
Definition same_set (cs cs' : list cid) : Prop := ∀ c, c ∈ cs ↔ c ∈ cs'.

Lemma ensure_spec s r hp (key : bitset) mk : st_inv s r hp → ms_wf mk → u_ent U ∉ ms_metas mk → key = ms_ids mk →
  ∃ r' o, rg_ensure_key U key mk r = (r', o) ∧
    rg_pool r' = rg_pool r ∧ rg_locs r' = rg_locs r ∧
    ((∃ b hp' cs rowss, o = Ok b ∧ hpe hp hp' ∧ st_inv s r' hp' ∧ hp' !! b = Some (cs, rowss) ∧
       same_set cs (ms_metas mk) ∧ (nonull r → nonull r')) ∨
     (o = Throw InsufficientChunkSize ∧ get_max_size (u_type U <$> ms_metas mk) = None ∧ st_inv s r' hp)).
Proof.
  intros Hs Hm Hent ->. pose proof Hs as [].
  unfold rg_ensure_key.
  destruct (index_spec bs_hash None (rg_table r) (ms_ids mk) si_twf0) as (t & i & Hidx & Htwf & Habs & Hfind).
  rewrite Hidx.
  assert (∃ v, ht_abs t !! ms_ids mk = Some v ∧ ht_deref t i = Some v) as (v & Hv & Hd).
  { pose proof (find_spec bs_hash t (ms_ids mk) Htwf) as Hf.
    destruct (ht_abs t !! ms_ids mk) as [v|] eqn:E.
    - exists v. split; [done|]. destruct Hf as (j & Hj & Hd). rewrite Hfind in Hj. by injection Hj as ->.
    - rewrite Hf in Hfind. done. }
  rewrite Hd. destruct v as [a|].
  - (* existing archetype *)
    assert (ht_abs (rg_table r) !! ms_ids mk = Some (Some a)) as Hold.
    { rewrite Habs in Hv. destruct (ht_abs (rg_table r) !! ms_ids mk) eqn:E; [congruence|]. rewrite lookup_insert in Hv. done. }
    rewrite Hold in Habs.
    destruct (si_t3 _ _ Hold) as (ar & Har & Hid). rewrite Har.
    assert (bs_eqb (ms_ids (ar_comps ar)) (ms_ids mk) = true) as ->.
    { rewrite Hid. unfold bs_eqb. by apply bool_decide_eq_true. }
    eexists _, _. split; [done|]. split; [done|]. split; [done|]. left.
    destruct (Forall2_lookup_l _ _ _ _ _ si_heap0 Har) as ([cs rowss] & Hx & Hrep). cbn [fst snd] in Hrep.
    exists a, hp, cs, rowss. split; [done|]. split; [by left|]. split; [|split; [done|]].
    + split; cbn [rg_set_table rg_heap rg_table]; rewrite ?Habs; done.
    + split.
      * intros c. rewrite <- (ap_cs _ _ _ _ _ Hrep). apply ms_eq_iff; [apply Hrep|done|done].
      * intros Hnn k. cbn [rg_set_table rg_table]. rewrite Habs. apply Hnn.
  - pose proof (ar_new_spec U HU mk Hm Hent) as Hnew.
    assert (∀ a, ht_abs (rg_table r) !! ms_ids mk ≠ Some (Some a)) as Hold.
    { intros a E. rewrite Habs, E in Hv. congruence. }
    assert (∀ key a, ht_abs t !! key = Some (Some a) ↔ ht_abs (rg_table r) !! key = Some (Some a)) as Heq.
    { intros key a. rewrite Habs. destruct (ht_abs (rg_table r) !! ms_ids mk) as [x|] eqn:E; [done|].
      destruct (decide (key = ms_ids mk)) as [->|].
      - rewrite lookup_insert, E. done.
      - by rewrite lookup_insert_ne. }
    destruct (get_max_size (u_type U <$> ms_metas mk)) as [mx|] eqn:Emax.
    + destruct Hnew as (ar & -> & Hrep & Hcomps).
      destruct (store_spec bs_hash t i (ms_ids mk) None (Some (length (rg_heap r))) Htwf Hfind Hv) as (t' & -> & Htwf' & Habs').
      rewrite Hcomps.
      assert (bs_eqb (ms_ids mk) (ms_ids mk) = true) as -> by (unfold bs_eqb; by apply bool_decide_eq_true).
      eexists _, _. split; [done|]. split; [done|]. split; [done|]. left.
      exists (length (rg_heap r)), (hp ++ [(ms_metas mk, [[]])]), (ms_metas mk), [[]].
      assert (length (rg_heap r) = length hp) as Hlen by (by eapply Forall2_length).
      split; [done|]. split; [right; eauto|]. split; [|split; [|split; [done|]]].
      * split; cbn [rg_set_table rg_set_heap rg_heap rg_table].
        -- apply Forall2_app; [done|]. constructor; [|done]. cbn [fst snd]. destruct s; [done|by eapply ar_repr_weaken].
        -- intros a x [Ha|[_ [_ <-]%list_lookup_singleton_Some]]%lookup_app_Some; [by eapply si_ent0|done].
        -- intros a x [Ha|[_ [_ <-]%list_lookup_singleton_Some]]%lookup_app_Some; [by eapply si_lay0|]. cbn [fst]. eauto.
        -- done.
        -- intros key a. rewrite Habs'. intros [[<- [= <-]]|[Hne Hk]]%lookup_insert_Some.
           ++ exists ar. rewrite list_lookup_middle by done. by rewrite Hcomps.
           ++ apply Heq in Hk. destruct (si_t3 _ _ Hk) as (ar0 & Ha & Hid). exists ar0.
              split; [by apply lookup_app_l_Some|done].
        -- intros a x [Ha|[Ha1 [Ha2 <-]%list_lookup_singleton_Some]]%lookup_app_Some; rewrite Habs'.
           ++ rewrite lookup_insert_ne.
              ** apply Heq. by apply si_t4.
              ** intros E. apply (Hold a). rewrite E. by apply si_t4.
           ++ rewrite Hcomps, lookup_insert. repeat f_equal. lia.
      * rewrite Hlen. by rewrite list_lookup_middle.
      * intros Hnn k. cbn [rg_set_table rg_set_heap rg_table]. rewrite Habs'.
        intros [[_ ?]|[Hne Hk]]%lookup_insert_Some; [done|]. rewrite Habs in Hk.
        destruct (ht_abs (rg_table r) !! ms_ids mk) as [x|] eqn:E.
        -- by eapply Hnn.
        -- rewrite lookup_insert_ne in Hk by done. by eapply Hnn.
    + rewrite Hnew. eexists _, _. split; [done|]. split; [done|]. split; [done|]. right. split; [done|]. split; [done|].
      split; cbn [rg_set_table rg_heap rg_table]; try done.
      * intros key a Hk%Heq. by apply si_t3.
      * intros a x Ha. apply Heq. by apply si_t4.
Qed.

End store.
