(** Iterating a view, as an operation on the entities it describes. *)
From Verif Require Import Base Bits Layout PropLayout HandlePool HandleSpec HandlePoolProofs SparseMap SparseMapProofs
  HashTable HashTableProofs HashTableMap Bitset BitsetProofs ComponentSet ComponentSetProofs
  Chunk ChunkProofs Archetype ArchetypeProofs Registry RegistryStore RegistryProofs View.
Ltac Zify.zify_post_hook ::= Z.div_mod_to_equations.

Section view.
Context (U : universe).
Hypothesis HU : u_wf U.

(** The arguments of a call for an entity, and its components after the callback assigned [g]. *)
Definition row_vals (rq : list vreq) (r : row) : list cell := omap (rcell U r) (vr_cid <$> rq).
Definition row_upd (rq : list vreq) (g : cid → option val) (r : row) : row :=
  (r.1, map_imap (λ c v, Some (if decide (VReq c true ∈ rq) then default v (g c) else v)) r.2).

Lemma upd_lookup rq g r c : (row_upd rq g r).2 !! c =
  (λ v, if decide (VReq c true ∈ rq) then default v (g c) else v) <$> r.2 !! c.
Proof. unfold row_upd. cbn [snd]. rewrite map_lookup_imap. by destruct (r.2 !! c). Qed.

Lemma upd_full cs rq g r : full cs r → full cs (row_upd rq g r).
Proof.
  intros Hf. unfold full in *. rewrite <- Hf. apply set_eq. intros c. rewrite !elem_of_dom, upd_lookup.
  by rewrite fmap_is_Some.
Qed.

Section chunk.
Context {cs : list cid} {max : nat} {bl : blocks} (Hbl : bl_ok U cs max bl).
Context (rq : list vreq) (Hrq : ∀ q, q ∈ rq → vr_cid q ∈ u_ent U :: cs) (Hent : VReq (u_ent U) true ∉ rq).

Definition ptrs (i : nat) : list N := (λ q, ad bl (vr_cid q) i) <$> rq.

Lemma it_new_ok i k : it_new bl rq i k = (k, Ok (ptrs i)).
Proof.
  unfold ptrs. clear Hent. revert Hrq. induction rq as [|q l IH]; intros Hl; [done|]. cbn [it_new].
  rewrite (bind_ok _ _ _ _ _ (fetch_ok U Hbl (vr_cid q) i k (Hl q ltac:(by left)))).
  rewrite (bind_ok _ _ _ _ _ (IH (λ q' Hq, Hl q' ltac:(by right)))). done.
Qed.

Lemma ad_succ c i : c ∈ u_ent U :: cs → (ad bl c i + ct_size (u_type U c))%N = ad bl c (S i).
Proof.
  intros Hc. destruct (bl_lookup U Hbl c Hc) as [b Hb]. unfold ad. rewrite Hb.
  destruct (bo_id _ _ _ _ Hbl _ _ Hb) as [_ Ht]. unfold addr, cell_offset. rewrite Ht. lia.
Qed.

Lemma it_incr_ok i : it_incr U rq (ptrs i) = ptrs (S i).
Proof.
  unfold ptrs, it_incr. clear Hent. revert Hrq. induction rq as [|q l IH]; intros Hl; [done|]. rewrite !fmap_cons.
  cbn [zip_with]. rewrite ad_succ by (apply Hl; by left). f_equal. apply IH. intros q' Hq. apply Hl. by right.
Qed.

Lemma it_eqb_ok i j : rq ≠ [] → it_eqb (ptrs i) (ptrs j) = bool_decide (i = j).
Proof.
  intros Hne. unfold it_eqb, ptrs. clear Hent. destruct rq as [|q l]; [done|]. cbn [fmap list_fmap head].
  apply bool_decide_ext. split; [|by intros ->]. intros [= E].
  destruct (bl_lookup U Hbl (vr_cid q)) as [b Hb]; [apply Hrq; by left|].
  destruct (bo_id _ _ _ _ Hbl _ _ Hb) as [_ Ht]. unfold ad in E. rewrite Hb in E. unfold addr, cell_offset in E.
  rewrite Ht in E. pose proof (uw_size _ HU (vr_cid q)). 
  assert (N.of_nat i * ct_size (u_type U (vr_cid q)) = N.of_nat j * ct_size (u_type U (vr_cid q)))%N as E2 by lia.
  apply N.mul_cancel_r in E2; lia.
Qed.

Lemma it_deref_ok s k rows (i : nat) r : ck_repr U s bl cs max k rows → rows !! i = Some r → full cs r →
  it_deref (ptrs i) k = (k, Ok (row_vals rq r)).
Proof.
  intros Hr Hi Hf. unfold ptrs, row_vals. clear Hent. revert Hrq. induction rq as [|q l IH]; intros Hl; [done|].
  rewrite !fmap_cons. cbn [it_deref omap list_omap]. unfold read_obj at 1.
  assert (vr_cid q ∈ u_ent U :: cs) as Hq by (apply Hl; by left).
  destruct (rcell_live U r (vr_cid q) Hf Hq) as [x Hx].
  rewrite (bind_ok _ _ k k x) by (by rewrite (cr_mem _ _ _ _ _ _ _ Hr _ _ _ _ Hi Hq Hx)). rewrite Hx.
  rewrite (bind_ok _ _ _ _ _ (IH (λ q' Hq, Hl q' ltac:(by right)))). done.
Qed.

(** The assignments of one call. *)
Lemma assigns_ok s (g : cid → option val) (i : nat) : ∀ l k rows r,
  (∀ q, q ∈ l → q ∈ rq) → ck_repr U s bl cs max k rows → rows !! i = Some r → full cs r →
  ∃ k', forM (zip l ((λ q, ad bl (vr_cid q) i) <$> l)) (λ qp,
      if vr_mut qp.1 then match g (vr_cid qp.1) with Some v => assign_obj qp.2 (CVal v) | None => ret tt end
      else ret tt) k = (k', Ok tt) ∧ ck_repr U s bl cs max k' (<[i := row_upd l g r]> rows).
Proof.
  induction l as [|q l IH]; intros k rows r Hl Hr Hi Hf.
  - exists k. split; [done|]. rewrite list_insert_id; [done|]. rewrite Hi. f_equal. destruct r as [h m].
    unfold row_upd. f_equal. cbn [snd]. apply map_eq. intros c. rewrite map_lookup_imap. destruct (m !! c); [|done].
    cbn. rewrite decide_False; [done|]. apply not_elem_of_nil.
  - rewrite fmap_cons. cbn [zip_with forM fst snd].
    assert (∃ k1, (if vr_mut q then match g (vr_cid q) with Some v => assign_obj (ad bl (vr_cid q) i) (CVal v) | None => ret tt end
      else ret tt) k = (k1, Ok tt) ∧ ck_repr U s bl cs max k1 (<[i := row_upd [q] g r]> rows)) as (k1 & E1 & Hr1).
    { assert (∀ m : gmap cid val, map_imap (λ _ v, Some v) m = m) as Hid.
      { intros m. apply map_eq. intros c. rewrite map_lookup_imap. by destruct (m !! c). }
      destruct q as [c [|]]; cbn [vr_mut vr_cid].
      - destruct (g c) as [v|] eqn:Eg.
        + assert (c ∈ cs) as Hc.
          { pose proof (Hrq (VReq c true)) as Hx. cbn [vr_cid] in Hx. specialize (Hx (Hl _ ltac:(by left))).
            apply elem_of_cons in Hx as [->|?]; [|done]. exfalso. apply Hent, Hl. by left. }
          assert (c ∈ dom r.2) as Hd by (rewrite Hf; by apply elem_of_list_to_set). apply elem_of_dom in Hd.
          destruct (assign_repr U Hbl s k rows i r c v Hr Hi Hc Hd) as (k1 & E1 & Hr1). exists k1. split; [done|].
          replace (row_upd [VReq c true] g r) with (r.1, <[c := v]> r.2); [done|]. unfold row_upd. f_equal.
          apply map_eq. intros c'. rewrite map_lookup_imap. destruct (decide (c' = c)) as [->|Hne].
          * rewrite lookup_insert. destruct Hd as [v0 ->]. cbn. rewrite decide_True by set_solver. by rewrite Eg.
          * rewrite lookup_insert_ne by done. destruct (r.2 !! c'); [|done]. cbn. rewrite decide_False; [done|].
            rewrite elem_of_list_singleton. congruence.
        + exists k. split; [done|]. replace (row_upd _ g r) with r; [by rewrite list_insert_id|].
          destruct r as [h m]. unfold row_upd. f_equal. cbn [snd]. apply map_eq. intros c'. rewrite map_lookup_imap.
          destruct (m !! c'); [|done]. cbn. case_decide as E; [|done]. apply elem_of_list_singleton in E.
          injection E as ->. by rewrite Eg.
      - exists k. split; [done|]. replace (row_upd _ g r) with r; [by rewrite list_insert_id|].
        destruct r as [h m]. unfold row_upd. f_equal. cbn [snd]. apply map_eq. intros c'. rewrite map_lookup_imap.
        destruct (m !! c'); [|done]. cbn. rewrite decide_False; [done|]. rewrite elem_of_list_singleton. congruence. }
    rewrite (bind_ok _ _ _ _ _ E1).
    destruct (IH k1 (<[i := row_upd [q] g r]> rows) (row_upd [q] g r)) as (k' & E & Hr').
    + intros; apply Hl; by right.
    + done.
    + apply list_lookup_insert. by eapply lookup_lt_Some.
    + by apply upd_full.
    + exists k'. split; [exact E|]. rewrite list_insert_insert in Hr'.
      replace (row_upd (q :: l) g r) with (row_upd l g (row_upd [q] g r)); [done|].
      unfold row_upd. cbn [fst snd]. f_equal. apply map_eq. intros c. rewrite !map_lookup_imap.
      destruct (r.2 !! c) as [v|]; [|done]. cbn. f_equal.
      destruct (g c) as [w|]; cbn; repeat case_decide; try done; set_solver.
Qed.

Lemma call_ok s f log k rows (i : nat) r : ck_repr U s bl cs max k rows → rows !! i = Some r → full cs r →
  ∃ k', vw_call rq f log (ptrs i) k = (k', Ok (log ++ [row_vals rq r])) ∧
    ck_repr U s bl cs max k' (<[i := row_upd rq (f log (row_vals rq r)) r]> rows).
Proof.
  intros Hr Hi Hf. unfold vw_call. rewrite (bind_ok _ _ _ _ _ (it_deref_ok _ _ _ _ _ Hr Hi Hf)).
  destruct (assigns_ok s (f log (row_vals rq r)) i rq k rows r (λ q H, H) Hr Hi Hf) as (k' & E & Hr').
  exists k'. split; [|done]. unfold ptrs. by rewrite (bind_ok _ _ _ _ _ E).
Qed.

(** All rows of a chunk, one after the other. *)
Fixpoint rows_upd (f : callback) (log : vlog) (rows : list row) : list row :=
  match rows with
  | [] => []
  | r :: rows => row_upd rq (f log (row_vals rq r)) r :: rows_upd f (log ++ [row_vals rq r]) rows
  end.

Lemma rows_ok s f : rq ≠ [] → ∀ rest done_ log k fuel, ck_repr U s bl cs max k (done_ ++ rest) → Forall (full cs) rest →
  length rest < fuel →
  ∃ k', vw_rows U fuel rq f (ptrs (length done_)) (ptrs (length done_ + length rest)) log k =
      (k', Ok (log ++ (row_vals rq <$> rest))) ∧
    ck_repr U s bl cs max k' (done_ ++ rows_upd f log rest).
Proof.
  intros Hne. induction rest as [|r rest IH]; intros done_ log k fuel Hr Hf Hfuel; (destruct fuel as [|fuel]; [cbn in Hfuel; lia|]); cbn [vw_rows length].
  - rewrite it_eqb_ok by done. rewrite bool_decide_true by lia. exists k. cbn [fmap list_fmap]. rewrite app_nil_r. done.
  - rewrite it_eqb_ok by done. rewrite bool_decide_false by lia. apply Forall_cons in Hf as [Hf1 Hf2].
    assert ((done_ ++ r :: rest) !! length done_ = Some r) as Hi by (by apply list_lookup_middle).
    destruct (call_ok s f log k _ _ r Hr Hi Hf1) as (k1 & E1 & Hr1). rewrite (bind_ok _ _ _ _ _ E1).
    rewrite it_incr_ok. rewrite insert_app_r_alt in Hr1 by lia. rewrite Nat.sub_diag in Hr1. cbn in Hr1.
    rewrite cons_middle, app_assoc in Hr1.
    destruct (IH (done_ ++ [row_upd rq (f log (row_vals rq r)) r]) (log ++ [row_vals rq r]) k1 fuel Hr1 Hf2) as (k' & E & Hr').
    { cbn in Hfuel. lia. }
    exists k'. rewrite app_length in E. cbn [length] in E.
    replace (length done_ + 1) with (S (length done_)) in E by lia.
    replace (length done_ + S (length rest)) with (S (length done_) + length rest) by lia.
    rewrite E. split.
    + do 2 f_equal. rewrite fmap_cons, <- app_assoc. done.
    + cbn [rows_upd]. rewrite cons_middle, app_assoc. done.
Qed.

Lemma chunk_ok s f log k rows : rq ≠ [] → ck_repr U s bl cs max k rows → Forall (full cs) rows →
  ∃ k', vw_chunk U bl rq f log k = (k', Ok (log ++ (row_vals rq <$> rows))) ∧
    ck_repr U s bl cs max k' (rows_upd f log rows).
Proof.
  intros Hne Hr Hf. unfold vw_chunk. rewrite (bind_ok _ _ k k k) by done.
  rewrite (bind_ok _ _ _ _ _ (it_new_ok 0 k)), (bind_ok _ _ _ _ _ (it_new_ok (ck_size k) k)).
  rewrite (cr_size _ _ _ _ _ _ _ Hr). apply (rows_ok s f Hne rows [] log k (S (length rows)) Hr Hf). lia.
Qed.

Lemma first_ok s k rows : rq ≠ [] → ck_repr U s bl cs max k rows → Forall (full cs) rows →
  vw_first bl rq k = (k, Ok (row_vals rq <$> head rows)).
Proof.
  intros Hne Hr Hf. unfold vw_first. rewrite (bind_ok _ _ k k k) by done.
  rewrite (bind_ok _ _ _ _ _ (it_new_ok 0 k)), (bind_ok _ _ _ _ _ (it_new_ok (ck_size k) k)).
  rewrite (cr_size _ _ _ _ _ _ _ Hr). rewrite it_eqb_ok by done. destruct rows as [|r rows].
  - by rewrite bool_decide_true.
  - rewrite bool_decide_false by (cbn; lia). apply Forall_cons in Hf as [Hf _].
    by rewrite (bind_ok _ _ _ _ _ (it_deref_ok s k (r :: rows) 0 r Hr eq_refl Hf)).
Qed.
End chunk.

(** The world after the callbacks for the entities [rows], in this order. *)
Fixpoint world_upd (rq : list vreq) (f : callback) (log : vlog) (rows : list row) (w : world) : world :=
  match rows with
  | [] => w
  | r :: rows =>
      world_upd rq f (log ++ [row_vals rq r]) rows (<[r.1 := (row_upd rq (f log (row_vals rq r)) r).2]> w)
  end.

Lemma world_upd_app rq f l1 : ∀ log l2 w,
  world_upd rq f log (l1 ++ l2) w = world_upd rq f (log ++ (row_vals rq <$> l1)) l2 (world_upd rq f log l1 w).
Proof.
  induction l1 as [|r l1 IH]; intros log l2 w; [cbn; by rewrite app_nil_r|].
  cbn [world_upd app fmap list_fmap]. rewrite IH. by rewrite <- app_assoc.
Qed.

Lemma rows_upd_length rq f log rows : length (rows_upd rq f log rows) = length rows.
Proof. revert log. induction rows as [|r rows IH]; intros log; [done|]. cbn. by rewrite IH. Qed.

Lemma rows_upd_full cs rq f log rows : Forall (full cs) rows → Forall (full cs) (rows_upd rq f log rows).
Proof.
  revert log. induction rows as [|r rows IH]; intros log; [done|]. intros [? ?]%Forall_cons. cbn.
  constructor; [by apply upd_full|by apply IH].
Qed.

Lemma lw_rows rq f (a j : nat) cs locs : ∀ rest done_ log hp rowss w,
  hp !! a = Some (cs, rowss) → rowss !! j = Some (done_ ++ rest) → lw (hrow hp) locs w →
  lw (hrow (<[a := (cs, <[j := done_ ++ rows_upd rq f log rest]> rowss)]> hp)) locs (world_upd rq f log rest w).
Proof.
  induction rest as [|r rest IH]; intros done_ log hp rowss w Ha Hj Hlw; cbn [rows_upd world_upd].
  - rewrite (list_insert_id rowss) by done. by rewrite list_insert_id.
  - set (r' := row_upd rq (f log (row_vals rq r)) r).
    assert (at_ rowss (j, length done_) = Some r) as Hat.
    { rewrite (at_lookup _ _ _ _ Hj). by apply list_lookup_middle. }
    assert (<[length done_ := r']> (done_ ++ r :: rest) = (done_ ++ [r']) ++ rest) as Eins.
    { rewrite insert_app_r_alt by lia. rewrite Nat.sub_diag. cbn. by rewrite <- app_assoc. }
    set (rowss1 := alter (<[length done_ := r']>) j rowss).
    assert (rowss1 = <[j := (done_ ++ [r']) ++ rest]> rowss) as E1.
    { unfold rowss1. rewrite (alter_insert _ _ _ _ Hj). by rewrite Eins. }
    assert (lw (hrow (<[a := (cs, rowss1)]> hp)) locs (<[r.1 := r'.2]> w)) as Hlw1.
    { destruct r as [h m]. apply (lw_update Hlw _ (a, (j, length done_)) h m).
      - unfold hrow. cbn [fst snd]. by rewrite Ha.
      - exact (hrow_alter hp a cs rowss (j, length done_) (h, m) (h, r'.2) Ha Hat). }
    pose proof (lookup_lt_Some _ _ _ Ha) as Hla. pose proof (lookup_lt_Some _ _ _ Hj) as Hlj.
    specialize (IH (done_ ++ [r']) (log ++ [row_vals rq r]) (<[a := (cs, rowss1)]> hp) rowss1 (<[r.1 := r'.2]> w)).
    rewrite list_lookup_insert in IH by done. specialize (IH eq_refl).
    assert (rowss1 !! j = Some ((done_ ++ [r']) ++ rest)) as Hj1 by (rewrite E1; by apply list_lookup_insert).
    specialize (IH Hj1 Hlw1). rewrite list_insert_insert in IH. rewrite E1 in IH. rewrite list_insert_insert in IH.
    rewrite <- app_assoc in IH. exact IH.
Qed.

(** One archetype. *)
Definition req_in (rq : list vreq) (cs : list cid) : Prop := ∀ q, q ∈ rq → vr_cid q ∈ u_ent U :: cs.

Global Instance req_in_dec rq cs : Decision (req_in rq cs).
Proof.
  destruct (decide (Forall (λ q, vr_cid q ∈ u_ent U :: cs) rq)) as [H|H]; rewrite Forall_forall in H; [by left|by right].
Defined.

Section archs.
Context (rq : list vreq) (Hent : VReq (u_ent U) true ∉ rq) (Hne : rq ≠ []).

(** Same number of rows in every chunk. *)
Definition same_shape (rowss rowss' : list (list row)) : Prop := length <$> rowss' = length <$> rowss.

Lemma shape_hole rowss rowss' : same_shape rowss rowss' → hole rowss' → hole rowss.
Proof.
  intros E [H1 H2]. assert (length rowss' = length rowss) as El.
  { apply (f_equal length) in E. by rewrite !fmap_length in E. }
  split; [|lia]. apply (f_equal last) in E. rewrite !fmap_last, H1 in E. cbn in E.
  destruct (last rowss) as [rows|]; [|done]. injection E as E. by destruct rows.
Qed.

Lemma chunks_ok s n f iss dd pend (a : nat) cs : ∀ rest done_ log r hp w ar,
  rinv U s n r iss dd pend hp w → hp !! a = Some (cs, done_ ++ rest) → rg_heap r !! a = Some ar → req_in rq cs →
  ∃ r' hp' rowss', vw_chunks U (Some a) (ar_blocks ar) rq f (seq (length done_) (length rest)) log r =
      (r', Ok (log ++ (row_vals rq <$> concat rest))) ∧
    rinv U s n r' iss dd pend hp' (world_upd rq f log (concat rest) w) ∧
    hp' = <[a := (cs, rowss')]> hp ∧ same_shape (done_ ++ rest) rowss' ∧ rg_table r' = rg_table r.
Proof.
  induction rest as [|rows rest IH]; intros done_ log r hp w ar Hr Ha Har Hrq.
  - exists r, hp, (done_ ++ []). cbn [concat fmap list_fmap seq length vw_chunks world_upd]. rewrite app_nil_r.
    split; [done|]. split; [done|]. rewrite !app_nil_r. rewrite app_nil_r in Ha. by rewrite list_insert_id.
  - cbn [length seq vw_chunks concat]. rewrite fmap_app, world_upd_app.
    destruct (st_arch U s r hp a _ (rv_st _ _ _ _ _ _ _ _ _ Hr) Ha) as (ar0 & Har0 & Hrep). cbn [fst snd] in Hrep.
    rewrite Har in Har0. injection Har0 as <-.
    assert ((done_ ++ rows :: rest) !! length done_ = Some rows) as Hj by (by apply list_lookup_middle).
    destruct (ar_chunk U s ar cs _ _ _ Hrep Hj) as (k & Hk & Hck).
    pose proof (rv_full _ _ _ _ _ _ _ _ _ Hr _ _ Ha) as Hfull. cbn [fst snd] in Hfull.
    assert (Forall (full cs) rows) as Hfr.
    { apply Forall_forall. by apply (fulls_rows cs _ _ _ Hfull Hj). }
    destruct (chunk_ok (ap_bl _ _ _ _ _ Hrep) rq Hrq Hent s f log k rows Hne Hck Hfr) as (k' & Ek & Hck').
    assert (length done_ < length (done_ ++ rows :: rest)) as Hlt by (by eapply lookup_lt_Some).
    pose proof (ar_put_chunk U s ar cs _ (length done_) k' _ Hlt Hrep Hck') as Hrep'.
    set (rowss1 := <[length done_ := rows_upd rq f log rows]> (done_ ++ rows :: rest)) in *.
    assert (rowss1 = (done_ ++ [rows_upd rq f log rows]) ++ rest) as E1.
    { unfold rowss1. rewrite insert_app_r_alt by lia. rewrite Nat.sub_diag. cbn. by rewrite <- app_assoc. }
    set (ar' := ar_with_chunks ar (<[length done_ := k']> (ar_chunks ar))) in *.
    rewrite (bind_ok _ _ _ _ _ (on_arch_run _ _ _ _ _ _ Har (on_chunk_run _ _ _ _ _ _ Hk Ek))). fold ar'.
    pose proof (lookup_lt_Some _ _ _ Ha) as Hla. pose proof (lookup_lt_Some _ _ _ Har) as Hlh.
    assert (rinv U s n (rg_set_heap r (<[a := ar']> (rg_heap r))) iss dd pend (<[a := (cs, rowss1)]> hp)
      (world_upd rq f log rows w)) as Hr1.
    { destruct Hr as [Hst Hf Hlwf Hlw Hp Hlive]. split.
      - by apply (st_put U s r hp a ar ar' cs (done_ ++ rows :: rest) rowss1).
      - apply (full_put hp a cs (done_ ++ rows :: rest) rowss1 Hf Ha). intros q x Hq.
        apply at_Some in Hq as (rows0 & Hq1 & Hq2). apply list_lookup_insert_Some in Hq1 as [(E & <- & _)|[Hn Hq1]].
        + pose proof (rows_upd_full cs rq f log rows Hfr) as Hu. rewrite Forall_forall in Hu. apply Hu.
          by eapply elem_of_list_lookup_2.
        + apply (Hfull q). destruct q as [c i]. cbn [fst snd] in *. by rewrite (at_lookup _ _ _ _ Hq1).
      - done.
      - apply (lw_rows rq f a (length done_) cs _ rows [] log hp _ w Ha Hj Hlw).
      - done.
      - assert (∀ h, is_Some (world_upd rq f log rows w !! h) → is_Some (w !! h)) as Hdom.
        { assert (∀ l log w, (∀ r, r ∈ l → is_Some (w !! r.1)) → ∀ h, is_Some (world_upd rq f log l w !! h) → is_Some (w !! h)) as Haux.
          { clear. induction l as [|r l IHl]; intros log w Hw h Hh; [done|]. cbn [world_upd] in Hh. apply IHl in Hh.
            - rewrite lookup_insert_is_Some in Hh. destruct Hh as [<-|[_ ?]]; [|done]. apply Hw. by left.
            - intros r' Hr'. rewrite lookup_insert_is_Some. destruct (decide (r.1 = r'.1)); [by left|]. right.
              split; [done|]. apply Hw. by right. }
          apply Haux. intros r0 Hr0. apply elem_of_list_lookup in Hr0 as [i Hi]. exists r0.2.
          apply (lw_world _ _ _ Hlw). exists (a, (length done_, i)). unfold hrow. cbn [fst snd]. rewrite Ha. cbn [snd].
          rewrite (at_lookup _ _ _ _ Hj), Hi. by destruct r0. }
        intros h Hh. apply Hlive. by apply Hdom. }
    destruct (IH (done_ ++ [rows_upd rq f log rows]) (log ++ (row_vals rq <$> rows)) _ _ _ ar' Hr1) as (r' & hp' & rowss' & E & Hr' & Ehp & Hsh & Ht).
    { rewrite list_lookup_insert by done. by rewrite E1. }
    { cbn [rg_set_heap rg_heap]. by apply list_lookup_insert. }
    { done. }
    exists r', hp', rowss'. change (ar_blocks ar') with (ar_blocks ar) in E.
    rewrite app_length, Nat.add_1_r in E. rewrite E. split; [by rewrite app_assoc|]. split; [done|]. split.
    { rewrite Ehp. by rewrite list_insert_insert. }
    split; [|done]. unfold same_shape in *. rewrite Hsh. rewrite !fmap_app. cbn [fmap list_fmap].
    rewrite rows_upd_length, <- app_assoc. done.
Qed.

(** The rows a table entry contributes. *)
Definition arows (hp : store) (e : bitset * option nat) : list row :=
  match e.2 ≫= (hp !!.) with
  | Some x => if decide (req_in rq x.1) then concat x.2 else []
  | None => []
  end.

Lemma match_ok s ar cs rowss : ar_repr U s ar cs rowss →
  forallb (vw_match U ar) (vr_cid <$> rq) = bool_decide (req_in rq cs).
Proof.
  clear Hent Hne. intros Hrep. apply eq_bool_prop_intro. rewrite bool_decide_spec. rewrite forallb_True, Forall_forall. split.
  - intros Hall q Hq. specialize (Hall (vr_cid q) ltac:(apply elem_of_list_fmap; eauto)).
    unfold vw_match in Hall. rewrite (ar_contains_spec U s ar cs rowss) in Hall by done.
    apply orb_True in Hall as [E|E]; apply bool_decide_unpack in E; set_solver.
  - intros Hin c Hc. apply elem_of_list_fmap in Hc as (q & -> & Hq). apply Hin in Hq. unfold vw_match.
    rewrite (ar_contains_spec U s ar cs rowss) by done. apply orb_True. rewrite !bool_decide_spec. set_solver.
Qed.

Lemma archs_ok s n f iss dd pend : ∀ l log r hp w,
  rinv U s n r iss dd pend hp w → NoDup l.*2 → (∀ e, e ∈ l → ∃ a, e.2 = Some a ∧ is_Some (hp !! a)) →
  ∃ r' hp', vw_archs U rq f l log r = (r', Ok (log ++ (row_vals rq <$> (l ≫= arows hp)))) ∧
    rinv U s n r' iss dd pend hp' (world_upd rq f log (l ≫= arows hp) w) ∧
    (nohole hp → nohole hp') ∧ rg_table r' = rg_table r.
Proof.
  induction l as [|e l IH]; intros log r hp w Hr Hnd Hl.
  - exists r, hp. cbn. rewrite app_nil_r. done.
  - cbn [fmap list_fmap] in Hnd. apply NoDup_cons in Hnd as [Hn Hnd].
    destruct (Hl e ltac:(by left)) as (a & He & [[cs rowss] Ha]).
    destruct (st_arch U s r hp a _ (rv_st _ _ _ _ _ _ _ _ _ Hr) Ha) as (ar & Har & Hrep). cbn [fst snd] in Hrep.
    cbn [vw_archs]. rewrite He. rewrite (bind_ok _ _ _ _ _ (rg_arch_run _ _ _ Har)).
    rewrite (match_ok s ar cs rowss Hrep).
    assert (arows hp e = if decide (req_in rq cs) then concat rowss else []) as Ee.
    { unfold arows. rewrite He. cbn. rewrite Ha. done. }
    cbn [mbind list_bind]. rewrite Ee, fmap_app, world_upd_app. change (list_bind _ _ (arows hp) l) with (l ≫= arows hp).
    destruct (decide (req_in rq cs)) as [Hin|Hin].
    + rewrite bool_decide_true by done. rewrite (ar_len U s ar cs rowss Hrep).
      destruct (chunks_ok s n f iss dd pend a cs rowss [] log r hp w ar Hr Ha Har Hin) as (r1 & hp1 & rowss1 & E1 & Hr1 & Ehp & Hsh & Ht).
      cbn [length app] in E1, Hsh. rewrite (bind_ok _ _ _ _ _ E1).
      assert (∀ b, b ≠ a → hp1 !! b = hp !! b) as Hoth by (intros b Hb; rewrite Ehp; by apply list_lookup_insert_ne).
      assert (∀ e', e' ∈ l → arows hp1 e' = arows hp e') as Hsame.
      { intros e' He'. destruct (Hl e' ltac:(by right)) as (b & Hb & _). unfold arows. rewrite Hb. cbn. rewrite Hoth; [done|].
        intros ->. apply Hn. apply elem_of_list_fmap. exists e'. split; [congruence|done]. }
      assert (l ≫= arows hp1 = l ≫= arows hp) as Hbind.
      { clear -Hsame. induction l as [|e' l IHl]; [done|]. cbn. rewrite Hsame by (by left). f_equal. apply IHl.
        intros ??. apply Hsame. by right. }
      destruct (IH (log ++ (row_vals rq <$> concat rowss)) r1 hp1 _ Hr1 Hnd) as (r' & hp' & E & Hr' & Hnh & Ht').
      { intros e' He'. destruct (Hl e' ltac:(by right)) as (b & Hb & [y Hy]). exists b. split; [done|].
        rewrite Ehp. rewrite lookup_lt_is_Some. rewrite insert_length. by eapply lookup_lt_Some. }
      rewrite Hbind in E, Hr'. exists r', hp'. rewrite E, <- app_assoc. split; [done|]. split; [done|]. split; [|congruence].
      intros Hnohole. apply Hnh. rewrite Ehp. apply nohole_put; [done|]. cbn [snd].
      intros Hh%(shape_hole _ _ Hsh). by apply (Hnohole _ _ Ha).
    + rewrite bool_decide_false by done. rewrite (bind_ok _ _ r r log) by done. cbn [fmap list_fmap world_upd app].
      rewrite app_nil_r. apply IH; [done|done|]. intros e' He'. apply Hl. by right.
Qed.

(** Early exit. *)
Lemma first_chunks_ok s (a : nat) ar cs : ∀ rest done_ r, rg_heap r !! a = Some ar → ar_repr U s ar cs (done_ ++ rest) →
  fulls cs (done_ ++ rest) → req_in rq cs →
  vs_chunks (Some a) (ar_blocks ar) rq (seq (length done_) (length rest)) r = (r, Ok (row_vals rq <$> head (concat rest))).
Proof.
  induction rest as [|rows rest IH]; intros done_ r Har Hrep Hfull Hin; [done|]. cbn [length seq vs_chunks concat].
  assert ((done_ ++ rows :: rest) !! length done_ = Some rows) as Hj by (by apply list_lookup_middle).
  destruct (ar_chunk U s ar cs _ _ _ Hrep Hj) as (k & Hk & Hck).
  assert (Forall (full cs) rows) as Hfr by (apply Forall_forall; by apply (fulls_rows cs _ _ _ Hfull Hj)).
  pose proof (first_ok (ap_bl _ _ _ _ _ Hrep) rq Hin s k rows Hne Hck Hfr) as E1.
  assert (on_chunk (length done_) (vw_first (ar_blocks ar) rq) ar = (ar, Ok (row_vals rq <$> head rows))) as E2.
  { rewrite (on_chunk_run _ _ _ _ _ _ Hk E1). f_equal. unfold ar_with_chunks. rewrite list_insert_id by done. by destruct ar. }
  rewrite (bind_ok _ _ _ _ _ (on_arch_same _ _ _ _ _ Har E2)). destruct rows as [|x rows]; cbn [head fmap option_fmap option_map app]; [|done].
  specialize (IH (done_ ++ [[]]) r Har). rewrite <- app_assoc in IH. cbn [app] in IH. rewrite app_length, Nat.add_1_r in IH.
  by apply IH.
Qed.

Lemma first_archs_ok s r hp : st_inv U s r hp → fullhp hp → ∀ l, (∀ e, e ∈ l → ∃ a, e.2 = Some a ∧ is_Some (hp !! a)) →
  vs_archs U rq l r = (r, Ok (row_vals rq <$> head (l ≫= arows hp))).
Proof.
  intros Hst Hf. induction l as [|e l IH]; intros Hl; [done|].
  destruct (Hl e ltac:(by left)) as (a & He & [[cs rowss] Ha]).
  destruct (st_arch U s r hp a _ Hst Ha) as (ar & Har & Hrep). cbn [fst snd] in Hrep.
  cbn [vs_archs]. rewrite He. rewrite (bind_ok _ _ _ _ _ (rg_arch_run _ _ _ Har)).
  rewrite (match_ok s ar cs rowss Hrep).
  assert (arows hp e = if decide (req_in rq cs) then concat rowss else []) as Ee.
  { unfold arows. rewrite He. cbn. rewrite Ha. done. }
  cbn [mbind list_bind]. rewrite Ee. change (list_bind _ _ (arows hp) l) with (l ≫= arows hp).
  specialize (IH (λ e' He', Hl e' ltac:(by right))).
  destruct (decide (req_in rq cs)) as [Hin|Hin].
  - rewrite bool_decide_true by done. rewrite (ar_len U s ar cs rowss Hrep).
    pose proof (first_chunks_ok s a ar cs rowss [] r Har Hrep (Hf _ _ Ha) Hin) as E. cbn [length] in E.
    rewrite (bind_ok _ _ _ _ _ E). destruct (concat rowss) as [|x xs]; [|done]. cbn [head fmap option_fmap option_map app]. done.
  - rewrite bool_decide_false by done. by rewrite (bind_ok _ _ r r None).
Qed.
End archs.

(** The rows a view visits are the entities with the requested components. *)
Definition has_all (rq : list vreq) (m : gmap cid val) : Prop :=
  Forall (λ q, vr_cid q = u_ent U ∨ is_Some (m !! vr_cid q)) rq.
Global Instance has_all_dec rq m : Decision (has_all rq m).
Proof. unfold has_all. apply _. Defined.

Lemma NoDup_concat {A} (ls : list (list A)) : (∀ (i : nat) l, ls !! i = Some l → NoDup l) →
  (∀ (i j : nat) l l' x, ls !! i = Some l → ls !! j = Some l' → x ∈ l → x ∈ l' → i = j) → NoDup (concat ls).
Proof.
  induction ls as [|l ls IH]; intros H1 H2; [constructor|]. cbn. apply NoDup_app. split; [by apply (H1 0)|]. split.
  - intros x Hx Hc. apply elem_of_list_In, in_concat in Hc as (l' & Hl' & Hx').
    apply elem_of_list_In in Hl', Hx'. apply elem_of_list_lookup in Hl' as [j Hj].
    discriminate (H2 0 (S j) l l' x eq_refl Hj Hx Hx').
  - apply IH; [intros i l' Hi; by apply (H1 (S i))|]. intros i j l1 l2 x Hi Hj Hx Hx'.
    pose proof (H2 (S i) (S j) l1 l2 x Hi Hj Hx Hx'). lia.
Qed.

Lemma elem_concat_at (rowss : list (list row)) x : x ∈ concat rowss ↔ ∃ p, at_ rowss p = Some x.
Proof.
  rewrite elem_of_list_In, in_concat. split.
  - intros (l & Hl & Hx). apply elem_of_list_In in Hl, Hx. apply elem_of_list_lookup in Hl as [c Hc].
    apply elem_of_list_lookup in Hx as [i Hi]. exists (c, i). by rewrite (at_lookup _ _ _ _ Hc).
  - intros [p Hp]. apply at_Some in Hp as (l & Hl & Hx). exists l. rewrite <- !elem_of_list_In.
    split; by eapply elem_of_list_lookup_2.
Qed.

Lemma rows_perm s n r iss dd pend hp w rq : rinv U s n r iss dd pend hp w →
  (ht_iter (rg_table r) ≫= arows rq hp) ≡ₚ filter (λ r, has_all rq r.2) (map_to_list w).
Proof.
  intros [Hst Hf Hlwf Hlw Hp Hlive]. pose proof (iter_perm bs_hash _ (si_twf _ _ _ _ Hst)) as Hit.
  assert (∀ e, e ∈ ht_iter (rg_table r) ↔ ht_abs (rg_table r) !! e.1 = Some e.2) as Hiter.
  { intros [k v]. rewrite Hit. by rewrite elem_of_map_to_list. }
  assert (∀ e x, x ∈ arows rq hp e → ∃ a y p, e.2 = Some a ∧ hp !! a = Some y ∧ at_ y.2 p = Some x ∧ req_in rq y.1 ∧ hrow hp (a, p) = Some x) as Har.
  { intros e x Hx. unfold arows in Hx. destruct e.2 as [a|]; cbn in Hx; [|by apply elem_of_nil in Hx].
    destruct (hp !! a) as [y|] eqn:Ha; [|by apply elem_of_nil in Hx]. destruct (decide _) as [Hin|]; [|by apply elem_of_nil in Hx].
    apply elem_concat_at in Hx as [p Hq]. exists a, y, p. repeat split; try done. unfold hrow. cbn [fst snd]. by rewrite Ha. }
  apply NoDup_Permutation.
  - unfold mbind.
    assert (∀ l, list_bind _ _ (arows rq hp) l = concat (arows rq hp <$> l)) as Eb.
    { clear. induction l as [|e l IH]; [done|]. cbn. f_equal. done. }
    rewrite Eb. apply NoDup_concat.
    + intros i l Hi. rewrite list_lookup_fmap, fmap_Some in Hi. destruct Hi as (e & He & ->). unfold arows.
      destruct (e.2) as [a|]; cbn; [|constructor]. destruct (hp !! a) as [y|] eqn:Ha; [|constructor].
      destruct (decide _); [|constructor]. apply NoDup_concat.
      * intros c rows Hc. apply NoDup_alt. intros i1 i2 x H1 H2.
        assert ((a, (c, i1)) = (a, (c, i2))) as E; [|congruence].
        apply (lw_same_id Hlw _ _ x x); [| |done]; unfold hrow; cbn [fst snd]; rewrite Ha; by rewrite (at_lookup _ _ _ _ Hc).
      * intros c1 c2 l1 l2 x H1 H2 Hx1 Hx2. apply elem_of_list_lookup in Hx1 as [i1 Hi1]. apply elem_of_list_lookup in Hx2 as [i2 Hi2].
        assert ((a, (c1, i1)) = (a, (c2, i2))) as E; [|congruence].
        apply (lw_same_id Hlw _ _ x x); [| |done]; unfold hrow; cbn [fst snd]; rewrite Ha; [by rewrite (at_lookup _ _ _ _ H1)|by rewrite (at_lookup _ _ _ _ H2)].
    + intros i j l l' x Hi Hj Hx Hx'. rewrite list_lookup_fmap, fmap_Some in Hi. destruct Hi as (e & He & ->). rewrite list_lookup_fmap, fmap_Some in Hj. destruct Hj as (e' & He' & ->).
      destruct (Har _ _ Hx) as (a & y & p & Ea & _ & _ & _ & Hq). destruct (Har _ _ Hx') as (a' & y' & p' & Ea' & _ & _ & _ & Hq').
      assert ((a, p) = (a', p')) as E by (by apply (lw_same_id Hlw _ _ x x)). injection E as <- _.
      assert (e = e') as <-.
      { apply elem_of_list_lookup_2 in He, He'. apply Hiter in He, He'. rewrite Ea in He. rewrite Ea' in He'.
        destruct (si_t1 _ _ _ _ Hst _ _ He) as (ar1 & Har1 & K1). destruct (si_t1 _ _ _ _ Hst _ _ He') as (ar2 & Har2 & K2).
        destruct e as [k v], e' as [k' v']. cbn in *. congruence. }
      apply (NoDup_lookup (ht_iter (rg_table r)) i j e); [|done|done]. rewrite Hit. apply NoDup_map_to_list.
  - apply NoDup_filter, NoDup_map_to_list.
  - intros [h m]. rewrite elem_of_list_filter, elem_of_map_to_list, (lw_world _ _ _ Hlw). cbn [snd]. rewrite elem_of_list_bind. split.
    + intros (e & Hx & He). destruct (Har _ _ Hx) as (a & y & p & Ea & Hy & Hp' & Hin & Hq). split; [|eauto].
      apply Forall_forall. intros q Hqq. apply Hin in Hqq. apply elem_of_cons in Hqq as [|Hqq]; [by left|right].
      apply (full_elem y.1 h m); [by apply (Hf _ _ Hy p)|done].
    + intros [Hall [[a p] Hq]]. apply hrow_Some in Hq as (y & Hy & Hp'). cbn [fst snd] in *.
      destruct (st_arch U s r hp a _ Hst Hy) as (ar & Har1 & _). pose proof (si_t2 _ _ _ _ Hst _ _ Har1) as Ht.
      exists (ms_ids (ar_comps ar), Some a). split; [|by apply Hiter]. unfold arows. cbn. rewrite Hy.
      rewrite decide_True; [apply elem_concat_at; eauto|]. intros q Hqq. unfold has_all in Hall. rewrite Forall_forall in Hall.
      apply Hall in Hqq as [->|Hs]; [by left|right]. apply (full_elem y.1 h m); [by apply (Hf _ _ Hy p)|done].
Qed.

Lemma entries_ok s r hp : st_inv U s r hp →
  NoDup (filter (λ e, e.2 ≠ None) (ht_iter (rg_table r))).*2 ∧
  ∀ e, e ∈ ht_iter (rg_table r) → e.2 ≠ None → ∃ a, e.2 = Some a ∧ is_Some (hp !! a).
Proof.
  intros Hst. pose proof (iter_perm bs_hash _ (si_twf _ _ _ _ Hst)) as Hit.
  assert (∀ e, e ∈ ht_iter (rg_table r) ↔ ht_abs (rg_table r) !! e.1 = Some e.2) as Hiter.
  { intros [k v]. rewrite Hit. by rewrite elem_of_map_to_list. }
  assert (∀ e, e ∈ ht_iter (rg_table r) → e.2 ≠ None → ∃ a ar, e.2 = Some a ∧ rg_heap r !! a = Some ar ∧ ms_ids (ar_comps ar) = e.1) as He1.
  { intros e He Hn. apply Hiter in He. destruct e.2 as [a|] eqn:Ea; [|done].
    destruct (si_t1 _ _ _ _ Hst _ _ He) as (ar & ? & ?). eauto. }
  split.
  - apply NoDup_fmap_2_strong; [|apply NoDup_filter; rewrite Hit; apply NoDup_map_to_list].
    intros e e' [Hn He]%elem_of_list_filter [Hn' He']%elem_of_list_filter E.
    destruct (He1 _ He Hn) as (a & ar & Ea & Ha & K). destruct (He1 _ He' Hn') as (a' & ar' & Ea' & Ha' & K').
    destruct e as [k v], e' as [k' v']. cbn in *. congruence.
  - intros e He Hn. destruct (He1 _ He Hn) as (a & ar & Ea & Ha & K). exists a. split; [done|].
    destruct (Forall2_lookup_l _ _ _ _ _ (si_heap _ _ _ _ Hst) Ha) as (y & Hy & _). eauto.
Qed.

(** The table entries up to the first null pointer. *)
Lemma split_null (l : list (bitset * option nat)) :
  (∀ e, e ∈ l → e.2 ≠ None) ∨ ∃ l1 key l2, l = l1 ++ (key, None) :: l2 ∧ ∀ e, e ∈ l1 → e.2 ≠ None.
Proof.
  induction l as [|[key [a|]] l IH].
  - left. intros e He. by apply elem_of_nil in He.
  - destruct IH as [IH|(l1 & key' & l2 & -> & IH)].
    + left. intros e [->|He]%elem_of_cons; [done|by apply IH].
    + right. exists ((key, Some a) :: l1), key', l2. split; [done|]. intros e [->|He]%elem_of_cons; [done|by apply IH].
  - right. exists [], key, l. split; [done|]. intros e He. by apply elem_of_nil in He.
Qed.

Lemma filter_all {A} (P : A → Prop) `{∀ x, Decision (P x)} (l : list A) : (∀ x, x ∈ l → P x) → filter P l = l.
Proof.
  induction l as [|x l IH]; intros Hl; [done|]. rewrite filter_cons_True by (apply Hl; by left). f_equal. apply IH.
  intros; apply Hl; by right.
Qed.

Lemma vw_archs_app rq f l1 l2 : ∀ log r, vw_archs U rq f (l1 ++ l2) log r = (let! log' := vw_archs U rq f l1 log in vw_archs U rq f l2 log') r.
Proof.
  induction l1 as [|e l1 IH]; intros log r; [done|]. cbn [app vw_archs]. unfold bind. destruct (rg_arch e.2 r) as [r1 [ar|?|]]; try done.
  match goal with |- context [(if ?b then ?x else ?y) r1] => destruct ((if b then x else y) r1) as [r2 [log'|?|]] end; try done. by rewrite IH.
Qed.

Lemma vs_archs_app rq l1 l2 : ∀ r, vs_archs U rq (l1 ++ l2) r =
  (let! x := vs_archs U rq l1 in match x with Some xs => ret (Some xs) | None => vs_archs U rq l2 end) r.
Proof.
  induction l1 as [|e l1 IH]; intros r; [done|]. cbn [app vs_archs]. unfold bind. destruct (rg_arch e.2 r) as [r1 [ar|?|]]; try done.
  match goal with |- context [(if ?b then ?x else ?y) r1] => destruct ((if b then x else y) r1) as [r2 [[xs|]|?|]] end; try done. by rewrite IH.
Qed.

(** The callback runs on exactly the matching entities, once each; a null pointer in the table is undefined
    behaviour. *)
Lemma each_spec s n r iss dd pend hp w rq f : rinv U s n r iss dd pend hp w →
  VReq (u_ent U) true ∉ rq → rq ≠ [] →
  (∃ r' hp' es, rg_each U rq f r = (r', Ok (row_vals rq <$> es)) ∧
    es ≡ₚ filter (λ r, has_all rq r.2) (map_to_list w) ∧
    rinv U s n r' iss dd pend hp' (world_upd rq f [] es w) ∧ keeps r hp r' hp') ∨
  (¬ nonull r ∧ (rg_each U rq f r).2 = UB).
Proof.
  intros Hr Hent Hne. pose proof (rv_st _ _ _ _ _ _ _ _ _ Hr) as Hst.
  destruct (entries_ok s r hp Hst) as [Hnd Hall]. unfold rg_each. rewrite (bind_ok _ _ r r r) by done.
  destruct (split_null (ht_iter (rg_table r))) as [Hnn|(l1 & key & l2 & El & Hnn)].
  - left. rewrite filter_all in Hnd by done.
    destruct (archs_ok rq Hent Hne s n f iss dd pend (ht_iter (rg_table r)) [] r hp w Hr Hnd) as (r' & hp' & E & Hr' & Hnh & Ht).
    { intros e He. by apply Hall, Hnn. }
    exists r', hp', (ht_iter (rg_table r) ≫= arows rq hp). split; [done|]. split; [by eapply rows_perm|]. split; [done|].
    split; [auto|]. intros Hn. unfold nonull. by rewrite Ht.
  - right. split.
    + intros Hn. apply (Hn key). apply elem_of_map_to_list. rewrite <- (iter_perm bs_hash _ (si_twf _ _ _ _ Hst)), El. set_solver.
    + rewrite El, vw_archs_app. rewrite El, filter_app, (filter_all _ l1), fmap_app in Hnd by done. apply NoDup_app in Hnd as [Hnd _].
      destruct (archs_ok rq Hent Hne s n f iss dd pend l1 [] r hp w Hr Hnd) as (r' & hp' & E & _).
      { intros e He. apply Hall; [rewrite El; set_solver|by apply Hnn]. }
      rewrite (bind_ok _ _ _ _ _ E). done.
Qed.

Lemma single_spec s n r iss dd pend hp w rq : rinv U s n r iss dd pend hp w → rq ≠ [] →
  (∃ x, rg_single U rq r = (r, Ok (row_vals rq <$> x)) ∧
    (∀ e, x = Some e → w !! e.1 = Some e.2 ∧ has_all rq e.2) ∧
    (x = None → ∀ h m, w !! h = Some m → ¬ has_all rq m)) ∨
  (¬ nonull r ∧ (rg_single U rq r).2 = UB).
Proof.
  intros Hr Hne. pose proof (rv_st _ _ _ _ _ _ _ _ _ Hr) as Hst. pose proof (rv_full _ _ _ _ _ _ _ _ _ Hr) as Hf.
  destruct (entries_ok s r hp Hst) as [Hnd Hall]. unfold rg_single. rewrite (bind_ok _ _ r r r) by done.
  pose proof (rows_perm s n r iss dd pend hp w rq Hr) as Hp.
  assert (∀ e, e ∈ (ht_iter (rg_table r) ≫= arows rq hp) ↔ w !! e.1 = Some e.2 ∧ has_all rq e.2) as Hel.
  { intros [h m]. rewrite Hp, elem_of_list_filter, elem_of_map_to_list. naive_solver. }
  destruct (split_null (ht_iter (rg_table r))) as [Hnn|(l1 & key & l2 & El & Hnn)].
  - left. rewrite (first_archs_ok rq Hne s r hp Hst Hf) by (intros e He; by apply Hall, Hnn).
    eexists. split; [done|]. destruct (ht_iter (rg_table r) ≫= arows rq hp) as [|x xs]; cbn; (split; [|done || intros _]).
    + done.
    + intros h m Hw Hh. assert ((h, m) ∈ ([] : list row)) as He by (by apply (Hel (h, m))). by apply elem_of_nil in He.
    + intros e [= <-]. apply Hel. by left.
  - rewrite El, vs_archs_app.
    assert (vs_archs U rq l1 r = (r, Ok (row_vals rq <$> head (l1 ≫= arows rq hp)))) as E1.
    { apply (first_archs_ok rq Hne s r hp Hst Hf). intros e He. apply Hall; [rewrite El; set_solver|by apply Hnn]. }
    rewrite (bind_ok _ _ _ _ _ E1). rewrite El in Hel. setoid_rewrite bind_app in Hel.
    destruct (l1 ≫= arows rq hp) as [|x xs].
    + right. split; [|done]. intros Hn. apply (Hn key). apply elem_of_map_to_list.
      rewrite <- (iter_perm bs_hash _ (si_twf _ _ _ _ Hst)), El. set_solver.
    + left. exists (Some x). split; [done|]. split; [|done]. intros e [= <-]. apply Hel. by left.
Qed.
End view.
