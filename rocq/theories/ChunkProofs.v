(** The operations of a chunk as operations on its list of rows. *)
From Verif Require Import Base Bits Layout HandlePool SparseMap SparseMapProofs Bitset ComponentSet Chunk.
Ltac Zify.zify_post_hook ::= Z.div_mod_to_equations.

(** A row: the handle and the components. *)
Notation row := (handle * gmap cid val)%type.

Lemma forM_app {S A} (l1 l2 : list A) (f : A → M S unit) s :
  forM (l1 ++ l2) f s = bind (forM l1 f) (λ _, forM l2 f) s.
Proof.
  revert s. induction l1 as [|x l1 IH]; intros s; cbn [forM app].
  - done.
  - unfold bind. destruct (f x s) as [s' [[]|e|]]; [|done|done]. rewrite IH. done.
Qed.

Lemma forM_ext {S A} (l : list A) (f g : A → M S unit) :
  (∀ x, x ∈ l → ∀ s, f x s = g x s) → ∀ s, forM l f s = forM l g s.
Proof.
  induction l as [|x l IH]; intros Hfg s; cbn [forM]; [done|].
  unfold bind. rewrite Hfg by left. destruct (g x s) as [s' [[]|e|]]; [|done|done].
  apply IH. intros y Hy. apply Hfg. by right.
Qed.

Lemma forM_fmap {S A B} (h : A → B) (l : list A) (f : B → M S unit) s :
  forM (h <$> l) f s = forM l (λ x, f (h x)) s.
Proof.
  revert s. induction l as [|x l IH]; intros s; [done|]. rewrite fmap_cons. cbn [forM].
  unfold bind. destruct (f (h x) s) as [s' [[]|e|]]; [|done|done]. apply IH.
Qed.

(** Loops over distinct addresses. *)
Lemma construct_loop {A} (l : list A) (f : A → N) (g : A → cell) k :
  NoDup (f <$> l) →
  ∃ k', forM l (λ x, construct_at (f x) (g x)) k = (k', Ok tt) ∧
    ck_size k' = ck_size k ∧ ck_max k' = ck_max k ∧
    (∀ x, x ∈ l → ck_mem k' !! f x = Some (g x)) ∧
    (∀ o, o ∉ f <$> l → ck_mem k' !! o = ck_mem k !! o) ∧
    ((∀ x, x ∈ l → ck_mem k !! f x = None) → ck_lost k' = ck_lost k).
Proof.
  revert k. induction l as [|x l IH]; intros k Hnd; cbn [forM].
  - exists k. repeat split; try done. intros x Hx. by apply elem_of_nil in Hx.
  - rewrite fmap_cons in Hnd. apply NoDup_cons in Hnd as [Hx Hnd].
    unfold bind. cbn [construct_at].
    set (k1 := Chunk (<[f x := g x]> (ck_mem k)) (ck_size k) (ck_max k) _).
    destruct (IH k1 Hnd) as (k' & Hrun & Hs & Hm & Hin & Hout & Hl).
    exists k'. split; [done|]. split; [done|]. split; [done|]. split; [|split].
    + intros y [->|Hy]%elem_of_cons; [|by apply Hin].
      rewrite Hout by done. apply lookup_insert.
    + intros o Ho. rewrite fmap_cons in Ho. apply not_elem_of_cons in Ho as [Hne Ho].
      rewrite Hout by done. cbn [k1 ck_mem]. by rewrite lookup_insert_ne.
    + intros Hraw. rewrite Hl.
      * cbn [k1 ck_lost]. rewrite Hraw by left. done.
      * intros y Hy. cbn [k1 ck_mem]. rewrite lookup_insert_ne; [apply Hraw; by right|].
        intros E. apply Hx. rewrite E. by apply elem_of_list_fmap_1.
Qed.

Lemma destroy_loop {A} (l : list A) (f : A → N) k :
  NoDup (f <$> l) → (∀ x, x ∈ l → is_Some (ck_mem k !! f x)) →
  ∃ k', forM l (λ x, destroy_obj (f x)) k = (k', Ok tt) ∧
    ck_size k' = ck_size k ∧ ck_max k' = ck_max k ∧ ck_lost k' = ck_lost k ∧
    (∀ x, x ∈ l → ck_mem k' !! f x = None) ∧
    (∀ o, o ∉ f <$> l → ck_mem k' !! o = ck_mem k !! o).
Proof.
  revert k. induction l as [|x l IH]; intros k Hnd Hlive; cbn [forM].
  - exists k. repeat split; try done. intros x Hx. by apply elem_of_nil in Hx.
  - rewrite fmap_cons in Hnd. apply NoDup_cons in Hnd as [Hx Hnd].
    destruct (Hlive x) as [c Hc]; [by left|].
    unfold bind. unfold destroy_obj at 1. rewrite Hc.
    set (k1 := Chunk (delete (f x) (ck_mem k)) (ck_size k) (ck_max k) (ck_lost k)).
    destruct (IH k1 Hnd) as (k' & Hrun & Hs & Hm & Hl & Hin & Hout).
    { intros y Hy. cbn [k1 ck_mem]. rewrite lookup_delete_ne; [apply Hlive; by right|].
      intros E. apply Hx. rewrite E. by apply elem_of_list_fmap_1. }
    exists k'. split; [done|]. split; [done|]. split; [done|]. split; [done|]. split.
    + intros y [->|Hy]%elem_of_cons; [|by apply Hin].
      rewrite Hout by done. apply lookup_delete.
    + intros o Ho. rewrite fmap_cons in Ho. apply not_elem_of_cons in Ho as [Hne Ho].
      rewrite Hout by done. cbn [k1 ck_mem]. by rewrite lookup_delete_ne.
Qed.

Lemma move_loop {A} (l : list A) (f g : A → N) (s d : chunk) :
  NoDup (f <$> l) → NoDup (g <$> l) → (∀ x, x ∈ l → is_Some (ck_mem s !! f x)) →
  ∃ s' d', forM l (λ x, let! c := on_fst (take_obj (f x)) in on_snd (construct_at (g x) c)) (s, d) = ((s', d'), Ok tt) ∧
    ck_size s' = ck_size s ∧ ck_max s' = ck_max s ∧ ck_lost s' = ck_lost s ∧
    ck_size d' = ck_size d ∧ ck_max d' = ck_max d ∧
    (∀ x, x ∈ l → ck_mem s' !! f x = moved_from <$> (ck_mem s !! f x)) ∧
    (∀ o, o ∉ f <$> l → ck_mem s' !! o = ck_mem s !! o) ∧
    (∀ x, x ∈ l → ck_mem d' !! g x = ck_mem s !! f x) ∧
    (∀ o, o ∉ g <$> l → ck_mem d' !! o = ck_mem d !! o) ∧
    ((∀ x, x ∈ l → ck_mem d !! g x = None) → ck_lost d' = ck_lost d).
Proof.
  revert s d. induction l as [|x l IH]; intros s d Hf Hg Hlive; cbn [forM].
  - exists s, d. repeat split; try done; intros x Hx; by apply elem_of_nil in Hx.
  - rewrite fmap_cons in Hf, Hg. apply NoDup_cons in Hf as [Hxf Hf]. apply NoDup_cons in Hg as [Hxg Hg].
    destruct (Hlive x) as [c Hc]; [by left|].
    unfold bind at 1 2. unfold on_fst at 1, take_obj, bind, read_obj, assign_obj, ret. cbn [fst snd]. rewrite Hc. rewrite Hc.
    unfold on_snd at 1. cbn [construct_at fst snd].
    set (s1 := Chunk (<[f x := moved_from c]> (ck_mem s)) (ck_size s) (ck_max s) (ck_lost s)).
    set (d1 := Chunk (<[g x := c]> (ck_mem d)) (ck_size d) (ck_max d) _).
    assert (∀ y, y ∈ l → f y ≠ f x) as Hnf.
    { intros y Hy E. apply Hxf. rewrite <- E. by apply elem_of_list_fmap_1. }
    assert (∀ y, y ∈ l → g y ≠ g x) as Hng.
    { intros y Hy E. apply Hxg. rewrite <- E. by apply elem_of_list_fmap_1. }
    destruct (IH s1 d1 Hf Hg) as (s' & d' & Hrun & H1 & H2 & H3 & H4 & H5 & H6 & H7 & H8 & H9 & H10).
    { intros y Hy. cbn [s1 ck_mem]. rewrite lookup_insert_ne by (intros E; by apply (Hnf y)). apply Hlive. by right. }
    exists s', d'. split.
    { rewrite <- Hrun. done. }
    do 5 (split; [done|]). split; [|split; [|split; [|split]]].
    + intros y [->|Hy]%elem_of_cons.
      * rewrite H7 by done. cbn [s1 ck_mem]. rewrite lookup_insert, Hc. done.
      * rewrite H6 by done. cbn [s1 ck_mem]. rewrite lookup_insert_ne; [done|]. intros E. by apply (Hnf y).
    + intros o Ho. rewrite fmap_cons in Ho. apply not_elem_of_cons in Ho as [Hne Ho].
      rewrite H7 by done. cbn [s1 ck_mem]. by rewrite lookup_insert_ne.
    + intros y [->|Hy]%elem_of_cons.
      * rewrite H9 by done. cbn [d1 ck_mem]. by rewrite lookup_insert, Hc.
      * rewrite H8 by done. cbn [s1 ck_mem]. rewrite lookup_insert_ne; [done|]. intros E. by apply (Hnf y).
    + intros o Ho. rewrite fmap_cons in Ho. apply not_elem_of_cons in Ho as [Hne Ho].
      rewrite H9 by done. cbn [d1 ck_mem]. by rewrite lookup_insert_ne.
    + intros Hraw. rewrite H10.
      * cbn [d1 ck_lost]. rewrite Hraw by left. done.
      * intros y Hy. cbn [d1 ck_mem]. rewrite lookup_insert_ne by (intros E; by apply (Hng y)). apply Hraw. by right.
Qed.

Section proofs.
Variable U : universe.

(** What the block table of an archetype with components [cs] and [max] rows per chunk satisfies. *)
Record bl_ok (cs : list cid) (max : nat) (bl : blocks) : Prop := {
  bo_wf : sm_wf w32 bl;
  bo_keys : (sm_dense bl).*1 = u_ent U :: cs;
  bo_nd : NoDup (u_ent U :: cs);
  bo_id : ∀ c b, sm_abs bl !! c = Some b → bm_id b = c ∧ b_type (bm_block b) = u_type U c;
  bo_inj : ∀ c b c' b' i j, sm_abs bl !! c = Some b → sm_abs bl !! c' = Some b' →
     i < max → j < max → addr b i = addr b' j → c = c' ∧ i = j }.

(** Address of component [c] in row [i]. *)
Definition ad (bl : blocks) (c : cid) (i : nat) : N :=
  match sm_abs bl !! c with Some b => addr b i | None => 0%N end.

(** The object that represents component [c] of a row. *)
Definition rcell (r : row) (c : cid) : option cell :=
  if decide (c = u_ent U) then Some (CEnt r.1) else CVal <$> r.2 !! c.

(** The chunk holds these rows; a row may lack objects (raw memory).  With [s] set it moreover holds nothing
    else and nothing was lost. *)
Record ck_repr (s : bool) (bl : blocks) (cs : list cid) (max : nat) (k : chunk) (rows : list row) : Prop := {
  cr_size : ck_size k = length rows;
  cr_max : ck_max k = max;
  cr_le : length rows ≤ max;
  cr_dom : ∀ (i : nat) r, rows !! i = Some r → dom r.2 ⊆ list_to_set (C := gset cid) cs;
  cr_mem : ∀ (i : nat) r c x, rows !! i = Some r → c ∈ u_ent U :: cs → rcell r c = Some x → ck_mem k !! ad bl c i = Some x;
  cr_lost : s = true → ck_lost k = 0;
  cr_clean : s = true → ∀ o, is_Some (ck_mem k !! o) →
     ∃ c (i : nat) r, c ∈ u_ent U :: cs ∧ rows !! i = Some r ∧ is_Some (rcell r c) ∧ o = ad bl c i }.

(** A row with all its components. *)
Definition full (cs : list cid) (r : row) : Prop := dom r.2 = list_to_set (C := gset cid) cs.

Section bl.
Context {cs : list cid} {max : nat} {bl : blocks} (Hbl : bl_ok cs max bl).

Lemma bl_lookup c : c ∈ u_ent U :: cs → ∃ b, sm_abs bl !! c = Some b.
Proof.
  intros Hc. destruct (sm_abs bl !! c) eqn:E; [eauto|].
  apply (sm_abs_None w32) in E; [|apply Hbl]. by rewrite (bo_keys _ _ _ Hbl) in E.
Qed.

Lemma bl_lookup_None c : c ∉ u_ent U :: cs → sm_abs bl !! c = None.
Proof. intros Hc. apply (sm_abs_None w32); [apply Hbl|]. by rewrite (bo_keys _ _ _ Hbl). Qed.

Lemma bl_lookup_inv c b : sm_abs bl !! c = Some b → c ∈ u_ent U :: cs.
Proof.
  intros H. destruct (decide (c ∈ u_ent U :: cs)) as [|Hn]; [done|]. by rewrite bl_lookup_None in H.
Qed.

Lemma ad_inj c c' i j : c ∈ u_ent U :: cs → c' ∈ u_ent U :: cs → i < max → j < max →
  ad bl c i = ad bl c' j → c = c' ∧ i = j.
Proof.
  intros Hc Hc' Hi Hj. destruct (bl_lookup c Hc) as [b Hb]. destruct (bl_lookup c' Hc') as [b' Hb'].
  unfold ad. rewrite Hb, Hb'. by apply (bo_inj _ _ _ Hbl).
Qed.

Lemma ad_nodup (l : list cid) i : (∀ c, c ∈ l → c ∈ u_ent U :: cs) → NoDup l → i < max → NoDup ((λ c, ad bl c i) <$> l).
Proof.
  intros Hl Hnd Hi. induction Hnd as [|c l Hc Hnd IH]; [constructor|]. rewrite fmap_cons.
  constructor; [|apply IH; intros; apply Hl; by right].
  intros (c' & E & Hc')%elem_of_list_fmap. apply ad_inj in E as [-> _]; [done| | | |done]; try (apply Hl; (by left) || (by right)). done.
Qed.

Lemma dense_ad e : e ∈ sm_dense bl → sm_abs bl !! e.1 = Some e.2.
Proof.
  intros He. destruct e as [c b]. apply elem_of_list_lookup in He as [i Hi].
  apply (sm_abs_Some w32); [apply Hbl|]. eauto.
Qed.

Lemma forM_dense {S} (f : N * bmeta → M S unit) (g : cid → M S unit) s :
  (∀ e, sm_abs bl !! e.1 = Some e.2 → ∀ s, f e s = g e.1 s) →
  forM (sm_dense bl) f s = forM (u_ent U :: cs) g s.
Proof.
  intros H. rewrite <- (bo_keys _ _ _ Hbl). rewrite forM_fmap. apply forM_ext.
  intros e He. apply H. by apply dense_ad.
Qed.

Lemma blk_at_ok {S} c (s : S) : c ∈ u_ent U :: cs →
  ∃ b, blk_at bl c s = (s, Ok b) ∧ sm_abs bl !! c = Some b ∧ ∀ i, addr b i = ad bl c i.
Proof.
  intros Hc. destruct (bl_lookup c Hc) as [b Hb]. exists b. unfold blk_at.
  rewrite (sm_at_spec w32) by apply Hbl. rewrite Hb. repeat split; try done.
  intros i. unfold ad. by rewrite Hb.
Qed.

Lemma blk_find_ok {S} c (s : S) : c ∈ u_ent U :: cs →
  ∃ b, blk_find bl c s = (s, Ok b) ∧ sm_abs bl !! c = Some b ∧ ∀ i, addr b i = ad bl c i.
Proof.
  intros Hc. destruct (bl_lookup c Hc) as [b Hb]. exists b. unfold blk_find.
  destruct (sm_find_present w32 bl c b (bo_wf _ _ _ Hbl) Hb) as (i & -> & Hi & _).
  rewrite Nat2N.id, Hi. repeat split; try done. intros j. unfold ad. by rewrite Hb.
Qed.

Lemma fetch_ok {S} c i (s : S) : c ∈ u_ent U :: cs → fetch_pointer bl c i s = (s, Ok (ad bl c i)).
Proof.
  intros Hc. destruct (bl_lookup c Hc) as [b Hb]. unfold fetch_pointer.
  rewrite (sm_at_spec w32) by apply Hbl. rewrite Hb. unfold ad. by rewrite Hb.
Qed.

Lemma fetch_none {S} c i (s : S) : c ∉ u_ent U :: cs → fetch_pointer bl c i s = (s, Throw ComponentNotFound).
Proof.
  intros Hc. unfold fetch_pointer. rewrite (sm_at_spec w32) by apply Hbl. by rewrite bl_lookup_None.
Qed.

(** An empty chunk. *)
Lemma ck_new_repr s : ck_repr s bl cs max (ck_new max) [].
Proof.
  split; cbn; try done; try lia.
  intros _ o [? H]. rewrite lookup_empty in H. done.
Qed.

Lemma rcell_live r c : full cs r → c ∈ u_ent U :: cs → is_Some (rcell r c).
Proof.
  clear Hbl. intros Hd Hc. unfold rcell. case_decide as He; [eauto|].
  assert (c ∈ cs) as Hcs by set_solver.
  assert (c ∈ dom r.2) as [v Hv]%elem_of_dom by (rewrite Hd; set_solver).
  rewrite Hv. eauto.
Qed.

Lemma cell_eq s k rows (i : nat) r c : ck_repr s bl cs max k rows → rows !! i = Some r → full cs r →
  c ∈ u_ent U :: cs → ck_mem k !! ad bl c i = rcell r c.
Proof.
  intros Hr Hi Hf Hc. destruct (rcell_live r c Hf Hc) as [x Hx]. rewrite Hx. by eapply (cr_mem _ _ _ _ _ _ Hr).
Qed.

Lemma cell_raw k rows (i : nat) r c : ck_repr true bl cs max k rows → rows !! i = Some r → 
  c ∈ u_ent U :: cs → rcell r c = None → ck_mem k !! ad bl c i = None.
Proof.
  intros Hr Hi Hc Hn. destruct (ck_mem k !! ad bl c i) eqn:E; [|done]. exfalso.
  destruct (cr_clean _ _ _ _ _ _ Hr eq_refl (ad bl c i)) as (c' & j & r' & Hc' & Hj & Hx & E'); [eauto|].
  pose proof (cr_le _ _ _ _ _ _ Hr). pose proof (lookup_lt_Some _ _ _ Hi). pose proof (lookup_lt_Some _ _ _ Hj).
  apply ad_inj in E' as [-> ->]; try done; try lia. simplify_eq. rewrite Hn in Hx. by destruct Hx.
Qed.

Definition row_addrs (i : nat) : list N := (λ c, ad bl c i) <$> u_ent U :: cs.

Lemma row_addrs_ne c (i j : nat) : c ∈ u_ent U :: cs → i < max → j < max → i ≠ j → ad bl c i ∉ row_addrs j.
Proof.
  intros Hc Hi Hj Hne (c' & E & Hc')%elem_of_list_fmap. apply ad_inj in E as [_ E]; done.
Qed.
Lemma row_addrs_in c (i : nat) : c ∈ u_ent U :: cs → ad bl c i ∈ row_addrs i.
Proof. intros Hc. apply elem_of_list_fmap. by exists c. Qed.

(** chunk::pop_back removes the last row. *)
Lemma pop_back_repr s k rows r :
  ck_repr s bl cs max k (rows ++ [r]) → full cs r →
  ∃ k', ck_pop_back bl k = (k', Ok tt) ∧ ck_repr s bl cs max k' rows.
Proof.
  intros Hr Hf. pose proof Hr as []. rewrite app_length in *. cbn [length] in *.
  unfold ck_pop_back, bind, get. unfold ck_empty. rewrite bool_decide_false by lia.
  cbn [ck_set_size]. unfold ck_destroy_at.
  replace (ck_size k - 1) with (length rows) by lia.
  rewrite (forM_dense _ (λ c, destroy_obj (ad bl c (length rows)))).
  2:{ intros e He k'. unfold ad. by rewrite He. }
  assert ((rows ++ [r]) !! length rows = Some r) as Hlast by (by rewrite list_lookup_middle).
  destruct (destroy_loop (u_ent U :: cs) (λ c, ad bl c (length rows)) (Chunk (ck_mem k) (length rows) (ck_max k) (ck_lost k)))
    as (k' & Hrun & Hs & Hm & Hl & Hin & Hout).
  { apply ad_nodup; [done|apply Hbl|lia]. }
  { intros c Hc. cbn [ck_mem]. rewrite (cell_eq _ _ _ _ _ _ Hr Hlast Hf Hc). by apply rcell_live. }
  rewrite Hrun. exists k'. split; [done|]. cbn [ck_mem ck_size ck_max ck_lost] in *.
  split.
  - done.
  - by rewrite Hm.
  - lia.
  - intros i r' Hi. eapply cr_dom0. by apply lookup_app_l_Some.
  - intros i r' c x Hi Hc Hx. pose proof (lookup_lt_Some _ _ _ Hi).
    rewrite Hout by (apply row_addrs_ne; (done || lia)).
    eapply cr_mem0; [by apply lookup_app_l_Some|done|done].
  - intros Es. rewrite Hl. by apply cr_lost0.
  - intros Es o Ho.
    destruct (decide (o ∈ row_addrs (length rows))) as [Hin'|Hnot].
    { apply elem_of_list_fmap in Hin' as (c & -> & Hc). rewrite Hin in Ho by done. by destruct Ho. }
    rewrite Hout in Ho by done. destruct (cr_clean0 Es o Ho) as (c & i & r' & Hc & Hi & Hx & ->).
    exists c, i, r'. split; [done|]. split; [|done].
    apply lookup_app_Some in Hi as [Hi|[Hi1 [Hi2 <-]%list_lookup_singleton_Some]]; [done|]. exfalso.
    apply Hnot. replace i with (length rows) by lia. by apply row_addrs_in.
Qed.

(** When the memory of a chunk with room represents one more row. *)
Lemma append_repr s k k' rows r :
  ck_repr s bl cs max k rows → length rows < max →
  dom r.2 ⊆ list_to_set (C := gset cid) cs →
  ck_size k' = S (ck_size k) → ck_max k' = ck_max k →
  (∀ c x, c ∈ u_ent U :: cs → rcell r c = Some x → ck_mem k' !! ad bl c (length rows) = Some x) →
  (∀ c, c ∈ u_ent U :: cs → rcell r c = None → ck_mem k' !! ad bl c (length rows) = ck_mem k !! ad bl c (length rows)) →
  (∀ o, o ∉ row_addrs (length rows) → ck_mem k' !! o = ck_mem k !! o) →
  ((∀ c, c ∈ u_ent U :: cs → ck_mem k !! ad bl c (length rows) = None) → ck_lost k' = ck_lost k) →
  ck_repr s bl cs max k' (rows ++ [r]).
Proof.
  intros [] Hlt Hd Hs Hm Hin Hraw Hout Hl.
  assert (s = true → ∀ c, c ∈ u_ent U :: cs → ck_mem k !! ad bl c (length rows) = None) as Hclean.
  { intros Es c Hc. destruct (ck_mem k !! ad bl c (length rows)) eqn:E; [|done]. exfalso.
    destruct (cr_clean0 Es (ad bl c (length rows))) as (c' & i & r' & Hc' & Hi & _ & E'); [eauto|].
    apply lookup_lt_Some in Hi. apply ad_inj in E' as [_ E2]; try done; lia. }
  split; rewrite ?app_length; cbn [length].
  - lia.
  - congruence.
  - lia.
  - intros i r' [Hi|[Hi1 [_ <-]%list_lookup_singleton_Some]]%lookup_app_Some; [by eapply cr_dom0|done].
  - intros i r' c x [Hi|[Hi1 [Hi2 <-]%list_lookup_singleton_Some]]%lookup_app_Some Hc Hx.
    + pose proof (lookup_lt_Some _ _ _ Hi). rewrite Hout by (apply row_addrs_ne; (done || lia)). by eapply cr_mem0.
    + replace i with (length rows) by lia. by apply Hin.
  - intros Es. rewrite Hl; [by apply cr_lost0|]. by apply Hclean.
  - intros Es o Ho.
    destruct (decide (o ∈ row_addrs (length rows))) as [Hin'|Hnot].
    { apply elem_of_list_fmap in Hin' as (c & -> & Hc). exists c, (length rows), r. split; [done|].
      split; [by rewrite list_lookup_middle|]. split; [|done].
      destruct (rcell r c) eqn:E; [eauto|]. rewrite Hraw, Hclean in Ho by done. by destruct Ho. }
    rewrite Hout in Ho by done. destruct (cr_clean0 Es o Ho) as (c & i & r' & Hc & Hi & Hx & ->).
    exists c, i, r'. split; [done|]. split; [by apply lookup_app_l_Some|done].
Qed.

(** When the memory of a chunk represents the same rows but for one. *)
Lemma update_repr s k k' rows (i : nat) r0 r :
  ck_repr s bl cs max k rows → rows !! i = Some r0 →
  dom r.2 ⊆ list_to_set (C := gset cid) cs →
  ck_size k' = ck_size k → ck_max k' = ck_max k →
  (∀ c x, c ∈ u_ent U :: cs → rcell r c = Some x → ck_mem k' !! ad bl c i = Some x) →
  (s = true → ∀ c, c ∈ u_ent U :: cs → rcell r c = None → ck_mem k' !! ad bl c i = None) →
  (∀ o, o ∉ row_addrs i → ck_mem k' !! o = ck_mem k !! o) →
  (s = true → ck_lost k' = ck_lost k) →
  ck_repr s bl cs max k' (<[i := r]> rows).
Proof.
  intros [] Hi Hd Hs Hm Hin Hraw Hout Hl. pose proof (lookup_lt_Some _ _ _ Hi) as Hlt.
  split; rewrite ?insert_length.
  - congruence.
  - congruence.
  - lia.
  - intros j r' [(-> & -> & _)|[Hne Hj]]%list_lookup_insert_Some; [done|by eapply cr_dom0].
  - intros j r' c x [(-> & -> & _)|[Hne Hj]]%list_lookup_insert_Some Hc Hx; [by apply Hin|].
    pose proof (lookup_lt_Some _ _ _ Hj). rewrite Hout by (apply row_addrs_ne; (done || lia)). by eapply cr_mem0.
  - intros Es. rewrite Hl by done. by apply cr_lost0.
  - intros Es o Ho.
    destruct (decide (o ∈ row_addrs i)) as [Hin'|Hnot].
    { apply elem_of_list_fmap in Hin' as (c & -> & Hc). exists c, i, r. split; [done|].
      split; [by rewrite list_lookup_insert by done|]. split; [|done].
      destruct (rcell r c) eqn:E; [eauto|]. rewrite Hraw in Ho by done. by destruct Ho. }
    rewrite Hout in Ho by done. destruct (cr_clean0 Es o Ho) as (c & j & r' & Hc & Hj & Hx & ->).
    exists c, j, r'. split; [done|]. split; [|done]. rewrite list_lookup_insert_ne; [done|].
    intros ->. apply Hnot. by apply row_addrs_in.
Qed.

Lemma repr_weaken s k rows : ck_repr s bl cs max k rows → ck_repr false bl cs max k rows.
Proof. intros []. by split. Qed.

Lemma full_iff s k rows : ck_repr s bl cs max k rows → ck_full k = bool_decide (length rows = max).
Proof. intros []. unfold ck_full. by rewrite cr_size0, cr_max0. Qed.
Lemma empty_iff s k rows : ck_repr s bl cs max k rows → ck_empty k = bool_decide (rows = []).
Proof.
  intros []. unfold ck_empty. rewrite cr_size0. apply bool_decide_ext. split; [apply nil_length_inv|by intros ->].
Qed.

(** chunk::emplace_back appends a row. *)
Lemma emplace_back_repr s k rows h (args : list (cid * val)) :
  ck_repr s bl cs max k rows → length rows < max → args.*1 ≡ₚ cs →
  ∃ k', ck_emplace_back U bl h args k = (k', Ok tt) ∧
        ck_repr s bl cs max k' (rows ++ [(h, list_to_map args)]).
Proof.
  intros Hr Hlt Hperm. pose proof Hr as [].
  pose proof (bo_nd _ _ _ Hbl) as Hnd. apply NoDup_cons in Hnd as [Hent Hnd].
  assert (NoDup args.*1) as Hna by (by rewrite Hperm).
  unfold ck_emplace_back, bind at 1, get. rewrite (full_iff _ _ _ Hr). rewrite bool_decide_false by lia.
  unfold bind at 1. unfold bind at 1.
  destruct (blk_at_ok (u_ent U) k) as (eb & -> & Heb & Hea); [by left|].
  cbn [construct_at]. rewrite Hea, cr_size0.
  set (k1 := Chunk (<[ad bl (u_ent U) (length rows) := CEnt h]> (ck_mem k)) (length rows) (ck_max k) _).
  unfold bind at 1.
  erewrite (forM_ext args _ (λ cv, construct_at (ad bl cv.1 (length rows)) (CVal cv.2))).
  2:{ intros [c v] Hcv k2. cbn [fst snd]. unfold bind.
      destruct (blk_at_ok c k2) as (b & -> & _ & ->); [|done].
      right. rewrite <- Hperm. apply elem_of_list_fmap. by exists (c, v). }
  assert ((λ cv : cid * val, ad bl cv.1 (length rows)) <$> args = (λ c, ad bl c (length rows)) <$> args.*1) as Eaddr.
  { by rewrite <- list_fmap_compose. }
  destruct (construct_loop args (λ cv, ad bl cv.1 (length rows)) (λ cv, CVal cv.2) k1)
    as (k' & Hrun & Hs & Hm & Hin & Hout & Hl).
  { rewrite Eaddr. apply ad_nodup; [|done|lia]. intros c Hc. right. by rewrite <- Hperm. }
  rewrite Hrun. cbn [ck_set_size].
  eexists. split; [done|].
  assert (ad bl (u_ent U) (length rows) ∉ (λ c, ad bl c (length rows)) <$> args.*1) as Hentn.
  { intros (c & E & Hc)%elem_of_list_fmap. rewrite Hperm in Hc.
    apply ad_inj in E as [<- _]; try done; try lia; [by left|by right]. }
  assert (full cs (h, list_to_map args)) as Hfull.
  { unfold full. cbn [snd]. by rewrite dom_list_to_map_L, Hperm. }
  eapply append_repr; try done; cbn [ck_mem ck_size ck_max ck_lost].
  - by rewrite Hfull.
  - by rewrite cr_size0.
  - intros c x Hc. unfold rcell. cbn [fst snd]. case_decide as He.
    + subst c. intros [= <-]. rewrite Hout by (by rewrite Eaddr). cbn [k1 ck_mem]. apply lookup_insert.
    + assert (c ∈ args.*1) as Hca by (rewrite Hperm; set_solver).
      apply elem_of_list_fmap in Hca as ([c' v] & -> & Hcv). cbn [fst] in *.
      pose proof (Hin _ Hcv) as Hx. cbn [fst snd] in Hx. rewrite Hx.
      rewrite (elem_of_list_to_map_1 args c' v Hna Hcv). done.
  - intros c Hc Hn. destruct (rcell_live _ _ Hfull Hc) as [? ?]. congruence.
  - intros o Ho. unfold row_addrs in Ho. rewrite fmap_cons in Ho. apply not_elem_of_cons in Ho as [Ho1 Ho2].
    rewrite Hout. { cbn [k1 ck_mem]. by rewrite lookup_insert_ne. }
    rewrite Eaddr. intros (c & -> & Hc)%elem_of_list_fmap. apply Ho2. apply elem_of_list_fmap. exists c.
    split; [done|]. by rewrite <- Hperm.
  - intros Hraw. rewrite Hl.
    + cbn [k1 ck_lost]. rewrite Hraw by left. done.
    + intros [c v] Hcv. cbn [fst]. assert (c ∈ args.*1) as Hca by (apply elem_of_list_fmap; by exists (c, v)).
      cbn [k1 ck_mem]. rewrite lookup_insert_ne.
      * apply Hraw. right. by rewrite <- Hperm.
      * intros E. apply Hentn. rewrite E. apply elem_of_list_fmap. by exists c.
Qed.

(** The destructor of a chunk with full rows destroys every object once. *)
Lemma destruct_repr s k rows : ck_repr s bl cs max k rows → (∀ r, r ∈ rows → full cs r) →
  ∃ k', ck_destruct bl k = (k', Ok tt) ∧ (s = true → ck_leaked k' = 0).
Proof.
  intros Hr Hf. pose proof Hr as []. unfold ck_destruct, bind, get. rewrite cr_size0.
  set (n := length rows).
  rewrite (forM_dense _ (λ c, forM (seq 0 n) (λ i, destroy_obj (ad bl c i)))).
  2:{ intros e He k'. unfold ad. by rewrite He. }
  assert (∀ (l : list cid) k0, NoDup l → (∀ c, c ∈ l → c ∈ u_ent U :: cs) →
    (∀ c (i : nat), c ∈ l → i < n → is_Some (ck_mem k0 !! ad bl c i)) →
    ∃ k', forM l (λ c, forM (seq 0 n) (λ i, destroy_obj (ad bl c i))) k0 = (k', Ok tt) ∧ ck_lost k' = ck_lost k0 ∧
      (∀ c (i : nat), c ∈ l → i < n → ck_mem k' !! ad bl c i = None) ∧
      (∀ o, (∀ c (i : nat), c ∈ l → i < n → o ≠ ad bl c i) → ck_mem k' !! o = ck_mem k0 !! o)) as Hloop.
  { induction l as [|c l IH]; intros k0 Hnd Hl Hlive; cbn [forM].
    - exists k0. repeat split; try done. intros c i Hc. by apply elem_of_nil in Hc.
    - apply NoDup_cons in Hnd as [Hc Hnd].
      destruct (destroy_loop (seq 0 n) (λ i, ad bl c i) k0) as (k1 & Hrun & _ & _ & Hlo & Hin & Hout).
      { apply NoDup_fmap_2_strong; [|apply NoDup_seq]. intros i j Hi Hj E.
        apply elem_of_seq in Hi, Hj. unfold n in *. apply ad_inj in E as [_ ?]; try done; try lia; apply Hl; by left. }
      { intros i Hi%elem_of_seq. apply Hlive; [by left|lia]. }
      unfold bind. rewrite Hrun.
      assert (∀ c' (i : nat), c' ∈ l → i < n → ad bl c' i ∉ (λ i, ad bl c i) <$> seq 0 n) as Hne.
      { intros c' i Hc' Hi (j & E & Hj%elem_of_seq)%elem_of_list_fmap. unfold n in *.
        apply ad_inj in E as [-> _]; try done; try lia; apply Hl; (by left) || (by right). }
      destruct (IH k1 Hnd) as (k' & Hrun' & Hlo' & Hin' & Hout').
      { intros; apply Hl; by right. }
      { intros c' i Hc' Hi. rewrite Hout by (by apply Hne). apply Hlive; [by right|done]. }
      exists k'. split; [done|]. split; [congruence|]. split.
      + intros c' i [->|Hc']%elem_of_cons Hi; [|by apply Hin'].
        destruct (decide (ad bl c i ∈ ((λ '(c', j), ad bl c' j) <$> (c' ← l; j ← seq 0 n; [(c', j)])))) as [Hx|Hx].
        * apply elem_of_list_fmap in Hx as ([c' j] & E & Hx).
          apply elem_of_list_bind in Hx as (c'' & Hx & Hc'').
          apply elem_of_list_bind in Hx as (j' & Hx & Hj%elem_of_seq). apply elem_of_list_singleton in Hx as [= -> ->].
          rewrite E. apply Hin'; [done|lia].
        * rewrite Hout'; [apply Hin, elem_of_seq; lia|].
          intros c' j Hc' Hj E. apply Hx. apply elem_of_list_fmap. exists (c', j). split; [done|].
          apply elem_of_list_bind. exists c'. split; [|done]. apply elem_of_list_bind. exists j.
          split; [by apply elem_of_list_singleton|apply elem_of_seq; lia].
      + intros o Ho. rewrite Hout'.
        * apply Hout. intros (j & E & Hj%elem_of_seq)%elem_of_list_fmap. eapply Ho; [by left| |done]. lia.
        * intros c' j Hc' Hj. apply Ho; [by right|done]. }
  destruct (Hloop (u_ent U :: cs) k) as (k' & Hrun & Hlo & Hin & Hout).
  { apply Hbl. } { done. }
  { intros c i Hc Hi. destruct (lookup_lt_is_Some_2 rows i Hi) as [r Hri].
    rewrite (cell_eq _ _ _ _ _ _ Hr Hri); [|by eapply Hf, elem_of_list_lookup_2|done].
    apply rcell_live; [by eapply Hf, elem_of_list_lookup_2|done]. }
  exists k'. split; [done|]. intros Es. unfold ck_leaked. rewrite Hlo, cr_lost0 by done. cbn [plus].
  rewrite map_size_empty_iff. apply map_empty. intros o.
  destruct (ck_mem k' !! o) as [x0|] eqn:E; [|done]. exfalso.
  assert (ck_mem k !! o = ck_mem k' !! o ∨ ∃ c (i : nat), c ∈ u_ent U :: cs ∧ i < n ∧ o = ad bl c i) as [Eo|(c & i & Hc & Hi & ->)].
  { destruct (decide (Exists (λ c, Exists (λ i, o = ad bl c i) (seq 0 n)) (u_ent U :: cs))) as [Hx|Hx].
    - right. apply Exists_exists in Hx as (c & Hc & Hx). apply Exists_exists in Hx as (i & Hi%elem_of_seq & ->).
      exists c, i. split; [done|]. split; [lia|done].
    - left. symmetry. apply Hout. intros c i Hc Hi ->. apply Hx. apply Exists_exists. exists c. split; [done|].
      apply Exists_exists. exists i. split; [apply elem_of_seq; lia|done]. }
  - destruct (cr_clean0 Es o) as (c & i & r & Hc & Hi & _ & ->); [rewrite Eo; eauto|].
    rewrite Hin in E; [done|done|by eapply lookup_lt_Some].
  - by rewrite Hin in E.
Qed.

(** chunk::visit lists the components of a row in the order of the blocks. *)
Definition visit_row (cs : list cid) (r : row) : list (cid * cell) :=
  omap (λ c, match r.2 !! c with Some v => Some (c, CVal v) | None => None end) cs.

Lemma visit_repr s k rows (i : nat) r : ck_repr s bl cs max k rows → rows !! i = Some r → full cs r →
  ck_visit bl k i = Ok (visit_row cs r).
Proof.
  intros Hr Hi Hf. pose proof Hr as []. pose proof (lookup_lt_Some _ _ _ Hi). unfold ck_visit.
  destruct (decide _); [lia|].
  pose proof (bo_nd _ _ _ Hbl) as Hnd. apply NoDup_cons in Hnd as [Hent Hnd].
  assert ((drop 1 (sm_dense bl)).*1 = cs) as Ek.
  { rewrite fmap_drop. rewrite (bo_keys _ _ _ Hbl). done. }
  assert (∀ e, e ∈ drop 1 (sm_dense bl) →
    bm_id e.2 = e.1 ∧ ∃ v, r.2 !! e.1 = Some v ∧ ck_mem k !! addr e.2 i = Some (CVal v)) as Hd.
  { intros e He.
    assert (e.1 ∈ cs) as Hc by (rewrite <- Ek; apply elem_of_list_fmap; by exists e).
    assert (sm_abs bl !! e.1 = Some e.2) as Hb.
    { apply dense_ad. apply elem_of_list_lookup in He as [j Hj]. rewrite lookup_drop in Hj.
      by eapply elem_of_list_lookup_2. }
    split; [by apply (bo_id _ _ _ Hbl)|].
    assert (e.1 ∈ dom r.2) as [v Hv]%elem_of_dom by (rewrite Hf; set_solver).
    exists v. split; [done|]. replace (addr e.2 i) with (ad bl e.1 i) by (unfold ad; by rewrite Hb).
    eapply (cr_mem0 i r e.1); [done|by right|]. unfold rcell. rewrite Hv. case_decide as Hx; [|done].
    rewrite <- Hx in Hent. done. }
  rewrite <- Ek. clear - Hd. induction (drop 1 (sm_dense bl)) as [|[c b] l IH]; [done|].
  destruct (Hd (c, b)) as (Eid & v & Hv & Hm); [by left|]. cbn [fst snd] in *. cbn [fmap list_fmap fst].
  unfold visit_row. cbn [omap list_omap]. rewrite Hm, Hv, Eid. rewrite IH; [done|].
  intros e He. apply Hd. by right.
Qed.

(** Single objects. *)
Lemma read_repr s k rows (i : nat) r c v : ck_repr s bl cs max k rows → rows !! i = Some r → c ∈ cs →
  r.2 !! c = Some v → ck_mem k !! ad bl c i = Some (CVal v).
Proof.
  intros Hr Hi Hc Hv. eapply (cr_mem _ _ _ _ _ _ Hr); [done|by right|]. unfold rcell. rewrite Hv.
  pose proof (bo_nd _ _ _ Hbl) as Hnd. apply NoDup_cons in Hnd as [Hent Hnd]. case_decide; [by subst|done].
Qed.

Lemma store_repr s k k' rows (i : nat) r c v : ck_repr s bl cs max k rows → rows !! i = Some r → c ∈ cs →
  ck_size k' = ck_size k → ck_max k' = ck_max k → ck_mem k' = <[ad bl c i := CVal v]> (ck_mem k) →
  (s = true → ck_lost k' = ck_lost k) →
  ck_repr s bl cs max k' (<[i := (r.1, <[c := v]> r.2)]> rows).
Proof.
  intros Hr Hi Hc Hs Hm Hmem Hl.
  pose proof (bo_nd _ _ _ Hbl) as Hnd. apply NoDup_cons in Hnd as [Hent Hnd].
  pose proof (lookup_lt_Some _ _ _ Hi). pose proof (cr_le _ _ _ _ _ _ Hr).
  assert (∀ c', c' ∈ u_ent U :: cs → c' ≠ c → ad bl c i ≠ ad bl c' i) as Hne.
  { intros c' Hc' Hne E. apply ad_inj in E as [E _]; try done; try lia. by right. }
  eapply update_repr; try done.
  - cbn [snd]. rewrite dom_insert. pose proof (cr_dom _ _ _ _ _ _ Hr _ _ Hi). set_solver.
  - intros c' x Hc'. rewrite Hmem. destruct (decide (c' = c)) as [->|Hn].
    + unfold rcell. case_decide; [by subst|]. cbn [snd]. rewrite lookup_insert. intros [= <-]. apply lookup_insert.
    + rewrite lookup_insert_ne by (by apply Hne). intros Hx. eapply (cr_mem _ _ _ _ _ _ Hr); [done|done|].
      revert Hx. unfold rcell. cbn [fst snd]. by rewrite lookup_insert_ne by done.
  - intros -> c' Hc'. rewrite Hmem. destruct (decide (c' = c)) as [->|Hn].
    + unfold rcell. case_decide; [done|]. cbn [snd]. by rewrite lookup_insert.
    + rewrite lookup_insert_ne by (by apply Hne). intros Hx. eapply cell_raw; [done|done|done|].
      revert Hx. unfold rcell. cbn [fst snd]. by rewrite lookup_insert_ne by done.
  - intros o Ho. rewrite Hmem. rewrite lookup_insert_ne; [done|]. intros <-. apply Ho. apply row_addrs_in. by right.
Qed.

Lemma assign_repr s k rows (i : nat) r c v : ck_repr s bl cs max k rows → rows !! i = Some r → c ∈ cs →
  is_Some (r.2 !! c) →
  ∃ k', assign_obj (ad bl c i) (CVal v) k = (k', Ok tt) ∧
        ck_repr s bl cs max k' (<[i := (r.1, <[c := v]> r.2)]> rows).
Proof.
  intros Hr Hi Hc [v0 Hv]. unfold assign_obj. rewrite (read_repr _ _ _ _ _ _ _ Hr Hi Hc Hv).
  eexists. split; [done|]. by eapply store_repr.
Qed.

Lemma construct_repr s k rows (i : nat) r c v : ck_repr s bl cs max k rows → rows !! i = Some r → c ∈ cs →
  r.2 !! c = None →
  ∃ k', construct_at (ad bl c i) (CVal v) k = (k', Ok tt) ∧
        ck_repr s bl cs max k' (<[i := (r.1, <[c := v]> r.2)]> rows).
Proof.
  intros Hr Hi Hc Hv. unfold construct_at. eexists. split; [done|].
  eapply store_repr; try done. cbn [ck_lost]. intros ->.
  rewrite (cell_raw _ _ _ _ c Hr Hi); [done|by right|]. unfold rcell. rewrite Hv.
  pose proof (bo_nd _ _ _ Hbl) as Hnd. apply NoDup_cons in Hnd as [Hent Hnd]. case_decide; [by subst|done].
Qed.
End bl.

Lemma forM_filter {S A} (P : A → Prop) `{∀ x, Decision (P x)} (l : list A) (f : A → M S unit) s :
  forM l (λ x, if decide (P x) then f x else ret tt) s = forM (filter P l) f s.
Proof.
  revert s. induction l as [|x l IH]; intros s; [done|]. cbn [forM]. rewrite filter_cons.
  unfold bind. destruct (decide (P x)).
  - cbn [forM]. unfold bind. destruct (f x s) as [s' [[]|e|]]; [|done|done]. apply IH.
  - cbn. apply IH.
Qed.

Section two.
Context {cs : list cid} {max : nat} {bl : blocks} (Hbl : bl_ok cs max bl).
Context {cs2 : list cid} {max2 : nat} {bl2 : blocks} (Hbl2 : bl_ok cs2 max2 bl2).

(** The components of a row that exist on the other side, and what is left of a row after they were moved out. *)
Definition restrict (cs2 : list cid) (m : gmap cid val) : gmap cid val := filter (λ cv, cv.1 ∈ cs2) m.
Definition moved_out (cs2 : list cid) (m : gmap cid val) : gmap cid val :=
  map_imap (λ c v, Some (if decide (c ∈ cs2) then Moved else v)) m.

Lemma restrict_lookup (l : list cid) m c : restrict l m !! c = if decide (c ∈ l) then m !! c else None.
Proof.
  unfold restrict. case_decide as H.
  - destruct (m !! c) eqn:E.
    + by apply map_filter_lookup_Some_2.
    + apply map_filter_lookup_None. by left.
  - apply map_filter_lookup_None. right. intros v Hv. by cbn.
Qed.
Lemma moved_out_lookup (l : list cid) m c : moved_out l m !! c = (λ v, if decide (c ∈ l) then Moved else v) <$> m !! c.
Proof. unfold moved_out. rewrite map_lookup_imap. by destruct (m !! c). Qed.
Lemma moved_out_dom (l : list cid) m : dom (moved_out l m) = dom m.
Proof.
  apply set_eq. intros c. rewrite !elem_of_dom, moved_out_lookup. by rewrite fmap_is_Some.
Qed.

Lemma contains2 c : sm_contains bl2 c = Some (bool_decide (c ∈ u_ent U :: cs2)).
Proof.
  rewrite (sm_contains_spec w32) by apply Hbl2. f_equal. apply bool_decide_ext. split.
  - intros [b Hb]. by eapply bl_lookup_inv.
  - intros Hc. destruct (bl_lookup Hbl2 c Hc) as [b ->]. eauto.
Qed.

Lemma addr2 c b2 e i : sm_abs bl2 !! c = Some b2 → sm_abs bl !! c = Some e →
  (b_offset (bm_block b2) + N.of_nat i * ct_size (b_type (bm_block e)))%N = ad bl2 c i.
Proof.
  intros H2 H1. unfold ad. rewrite H2. unfold addr, cell_offset.
  destruct (bo_id _ _ _ Hbl _ _ H1) as [_ ->]. destruct (bo_id _ _ _ Hbl2 _ _ H2) as [_ ->]. done.
Qed.

Local Notation shared := (filter (λ c, c ∈ u_ent U :: cs2) (u_ent U :: cs)).

(** chunk::move. *)
Lemma move_repr s1 s2 k k2 rows rows2 (i : nat) r :
  ck_repr s1 bl cs max k rows → ck_repr s2 bl2 cs2 max2 k2 rows2 →
  rows !! i = Some r → full cs r → length rows2 < max2 →
  ∃ k' k2', ck_move bl bl2 i (k, k2) = ((k', k2'), Ok (length rows2)) ∧
    ck_repr s1 bl cs max k' (<[i := (r.1, moved_out cs2 r.2)]> rows) ∧
    ck_repr s2 bl2 cs2 max2 k2' (rows2 ++ [(r.1, restrict cs2 r.2)]).
Proof.
  intros Hr Hr2 Hi Hf Hlt. pose proof (lookup_lt_Some _ _ _ Hi) as Hil.
  pose proof (cr_le _ _ _ _ _ _ Hr) as Hle.
  pose proof (bo_nd _ _ _ Hbl) as Hnd. apply NoDup_cons in Hnd as [Hent Hnd].
  pose proof (bo_nd _ _ _ Hbl2) as Hnd2. apply NoDup_cons in Hnd2 as [Hent2 Hnd2].
  unfold ck_move, bind at 1 2 3, get, on_fst at 1, on_snd at 1. cbn [fst snd].
  destruct (decide _) as [Hbad|_]; [rewrite (cr_size _ _ _ _ _ _ Hr) in Hbad; lia|].
  rewrite (full_iff _ _ _ Hr2). rewrite bool_decide_false by lia.
  rewrite (forM_dense Hbl _ (λ c, if decide (c ∈ u_ent U :: cs2) then
     let! x := on_fst (take_obj (ad bl c i)) in on_snd (construct_at (ad bl2 c (length rows2)) x) else ret tt)).
  2:{ intros e He st. rewrite contains2. unfold bool_decide. destruct (decide_rel _ _ _) as [Hc|Hc].
      - destruct (decide (e.1 ∈ u_ent U :: cs2)); [|done].
        unfold bind at 1. destruct (blk_at_ok Hbl2 e.1 st Hc) as (b & -> & Hb & _).
        replace (addr e.2 i) with (ad bl e.1 i) by (unfold ad; by rewrite He).
        rewrite (addr2 _ _ _ _ Hb He). rewrite (cr_size _ _ _ _ _ _ Hr2). done.
      - by destruct (decide (e.1 ∈ u_ent U :: cs2)). }
  rewrite forM_filter.
  assert (∀ c, c ∈ shared → c ∈ u_ent U :: cs ∧ c ∈ u_ent U :: cs2) as Hsh.
  { intros c Hc. by apply elem_of_list_filter in Hc as [? ?]. }
  destruct (move_loop shared (λ c, ad bl c i) (λ c, ad bl2 c (length rows2)) k k2)
    as (k' & k2' & Hrun & H1 & H2 & H3 & H4 & H5 & H6 & H7 & H8 & H9 & H10).
  { apply (ad_nodup Hbl); [|apply NoDup_filter, Hbl|lia]. intros c Hc. by apply Hsh. }
  { apply (ad_nodup Hbl2); [|apply NoDup_filter, Hbl|lia]. intros c Hc. by apply Hsh. }
  { intros c Hc. rewrite (cell_eq _ _ _ _ _ _ Hr Hi Hf) by (by apply Hsh). apply (rcell_live (cs := cs)); [done|by apply Hsh]. }
  rewrite Hrun. cbn. eexists k', _. split; [by rewrite (cr_size _ _ _ _ _ _ Hr2)|]. split.
  - eapply (update_repr Hbl); try done.
    + cbn [snd]. rewrite moved_out_dom, Hf. done.
    + intros c x Hc Hx. destruct (decide (c ∈ u_ent U :: cs2)) as [Hc2|Hc2].
      * rewrite H6 by (by apply elem_of_list_filter). rewrite (cell_eq _ _ _ _ _ _ Hr Hi Hf) by done.
        revert Hx. unfold rcell. cbn [fst snd]. case_decide; [intros [= <-]; done|].
        rewrite moved_out_lookup. destruct (r.2 !! c); [|done]. cbn [fmap option_fmap option_map]. rewrite decide_True by (rewrite elem_of_cons in Hc2; tauto). done.
      * rewrite H7.
        { rewrite (cell_eq _ _ _ _ _ _ Hr Hi Hf) by done.
          revert Hx. unfold rcell. cbn [fst snd]. case_decide; [done|].
          rewrite moved_out_lookup. destruct (r.2 !! c); [|done]. cbn [fmap option_fmap option_map]. rewrite decide_False by (rewrite elem_of_cons in Hc2; tauto). done. }
        intros (c' & E & Hc')%elem_of_list_fmap. destruct (Hsh c' Hc') as [Hc1' Hc2'].
        apply (ad_inj Hbl) in E as [-> _]; try done; lia.
    + intros _ c Hc Hn. exfalso. destruct (rcell_live (cs := cs) (r.1, moved_out cs2 r.2) c) as [? ?]; [|done|congruence].
      unfold full. cbn [snd]. by rewrite moved_out_dom.
    + intros o Ho. apply H7. intros (c' & -> & Hc')%elem_of_list_fmap. destruct (Hsh c' Hc') as [Hc1' Hc2'].
      apply Ho. by apply row_addrs_in.
  - eapply (append_repr Hbl2); try done; cbn [ck_size ck_max ck_lost ck_mem].
    + intros c Hc. apply elem_of_dom in Hc as [v Hv]. cbn [snd] in Hv. rewrite restrict_lookup in Hv.
      case_decide; [|done]. by apply elem_of_list_to_set.
    + by rewrite (cr_size _ _ _ _ _ _ Hr2).
    + intros c x Hc Hx.
      assert (c ∈ u_ent U :: cs) as Hc1.
      { revert Hx. unfold rcell. case_decide; [subst; left|]. cbn [snd]. rewrite restrict_lookup. case_decide; [|done].
        intros Hx. destruct (r.2 !! c) eqn:E; [|done]. assert (c ∈ dom r.2) as Hd by (apply elem_of_dom; eauto).
        rewrite Hf in Hd. right. by apply elem_of_list_to_set in Hd. }
      rewrite H8 by (by apply elem_of_list_filter). rewrite (cell_eq _ _ _ _ _ _ Hr Hi Hf) by done.
      rewrite <- Hx. unfold rcell. cbn [fst snd]. case_decide; [done|]. rewrite restrict_lookup.
      rewrite decide_True by set_solver. done.
    + intros c Hc Hn. apply H9. intros (c' & E & Hc')%elem_of_list_fmap. destruct (Hsh c' Hc') as [Hc1' Hc2'].
      apply (ad_inj Hbl2) in E as [-> _]; try done.
      revert Hn. unfold rcell. cbn [fst snd]. case_decide; [done|]. rewrite restrict_lookup.
      rewrite decide_True by set_solver. destruct (rcell_live (cs := cs) r c' Hf Hc1') as [y Hy].
      unfold rcell in Hy. rewrite decide_False in Hy by done. destruct (r.2 !! c'); done.
    + intros o Ho. apply H9. intros (c' & -> & Hc')%elem_of_list_fmap. destruct (Hsh c' Hc') as [Hc1' Hc2'].
      apply Ho. by apply row_addrs_in.
    + intros Hraw. apply H10. intros c Hc. apply Hraw. by apply Hsh.
Qed.

(** chunk::copy. *)
Lemma copy_repr s1 s2 k k2 rows rows2 (i : nat) r :
  ck_repr s1 bl cs max k rows → ck_repr s2 bl2 cs2 max2 k2 rows2 →
  rows !! i = Some r → full cs r → length rows2 < max2 → u_copyable U (u_ent U) = true →
  (∀ c, c ∈ cs → c ∈ cs2 → u_copyable U c = true) →
  ∃ k2', ck_copy U bl bl2 k i k2 = (k2', Ok (length rows2)) ∧
    ck_repr s2 bl2 cs2 max2 k2' (rows2 ++ [(r.1, restrict cs2 r.2)]).
Proof.
  intros Hr Hr2 Hi Hf Hlt Hce Hcc. pose proof (lookup_lt_Some _ _ _ Hi) as Hil.
  pose proof (cr_le _ _ _ _ _ _ Hr) as Hle.
  pose proof (bo_nd _ _ _ Hbl) as Hnd. apply NoDup_cons in Hnd as [Hent Hnd].
  pose proof (bo_nd _ _ _ Hbl2) as Hnd2. apply NoDup_cons in Hnd2 as [Hent2 Hnd2].
  unfold ck_copy, bind at 1 2, get. 
  destruct (decide _) as [Hbad|_]; [rewrite (cr_size _ _ _ _ _ _ Hr) in Hbad; lia|].
  rewrite (full_iff _ _ _ Hr2). rewrite bool_decide_false by lia.
  rewrite (forM_dense Hbl _ (λ c, if decide (c ∈ u_ent U :: cs2) then
     construct_at (ad bl2 c (length rows2)) (default (CVal Moved) (rcell r c)) else ret tt)).
  2:{ intros e He st. rewrite contains2. unfold bool_decide. destruct (decide_rel _ _ _) as [Hc|Hc].
      - destruct (decide (e.1 ∈ u_ent U :: cs2)); [|done].
        unfold bind at 1. destruct (blk_at_ok Hbl2 e.1 st Hc) as (b & -> & Hb & _).
        replace (addr e.2 i) with (ad bl e.1 i) by (unfold ad; by rewrite He).
        rewrite (addr2 _ _ _ _ Hb He). rewrite (cr_size _ _ _ _ _ _ Hr2).
        pose proof (bl_lookup_inv Hbl _ _ He) as Hc1.
        rewrite (cell_eq _ _ _ _ _ _ Hr Hi Hf) by done.
        destruct (rcell_live (cs := cs) r e.1 Hf Hc1) as [x Hx]. rewrite Hx. cbn.
        unfold bind, of_opt, ret, copy_value.
        assert (u_copyable U e.1 = true) as ->; [|done].
        apply elem_of_cons in Hc1 as [->|Hc1]; [done|]. apply elem_of_cons in Hc as [->|Hc]; [done|]. by apply Hcc.
      - by destruct (decide (e.1 ∈ u_ent U :: cs2)). }
  rewrite forM_filter.
  assert (∀ c, c ∈ shared → c ∈ u_ent U :: cs ∧ c ∈ u_ent U :: cs2) as Hsh.
  { intros c Hc. by apply elem_of_list_filter in Hc as [? ?]. }
  destruct (construct_loop shared (λ c, ad bl2 c (length rows2)) (λ c, default (CVal Moved) (rcell r c)) k2)
    as (k2' & Hrun & H4 & H5 & H8 & H9 & H10).
  { apply (ad_nodup Hbl2); [|apply NoDup_filter, Hbl|lia]. intros c Hc. by apply Hsh. }
  rewrite Hrun. cbn. eexists _. split; [by rewrite (cr_size _ _ _ _ _ _ Hr2)|].
  eapply (append_repr Hbl2); try done; cbn [ck_size ck_max ck_lost ck_mem].
  - intros c Hc. apply elem_of_dom in Hc as [v Hv]. cbn [snd] in Hv. rewrite restrict_lookup in Hv.
    case_decide; [|done]. by apply elem_of_list_to_set.
  - by rewrite (cr_size _ _ _ _ _ _ Hr2).
  - intros c x Hc Hx.
    assert (c ∈ u_ent U :: cs) as Hc1.
    { revert Hx. unfold rcell. case_decide; [subst; left|]. cbn [snd]. rewrite restrict_lookup. case_decide; [|done].
      intros Hx. destruct (r.2 !! c) eqn:E; [|done]. assert (c ∈ dom r.2) as Hd by (apply elem_of_dom; eauto).
      rewrite Hf in Hd. right. by apply elem_of_list_to_set in Hd. }
    rewrite H8 by (by apply elem_of_list_filter).
    assert (rcell r c = Some x) as ->; [|done]. rewrite <- Hx. unfold rcell. cbn [fst snd]. case_decide; [done|]. rewrite restrict_lookup.
    rewrite decide_True by set_solver. done.
  - intros c Hc Hn. apply H9. intros (c' & E & Hc')%elem_of_list_fmap. destruct (Hsh c' Hc') as [Hc1' Hc2'].
    apply (ad_inj Hbl2) in E as [-> _]; try done.
    revert Hn. unfold rcell. cbn [fst snd]. case_decide; [done|]. rewrite restrict_lookup.
    rewrite decide_True by set_solver. destruct (rcell_live (cs := cs) r c' Hf Hc1') as [y Hy].
    unfold rcell in Hy. rewrite decide_False in Hy by done. destruct (r.2 !! c'); done.
  - intros o Ho. apply H9. intros (c' & -> & Hc')%elem_of_list_fmap. destruct (Hsh c' Hc') as [Hc1' Hc2'].
    apply Ho. by apply row_addrs_in.
  - intros Hraw. apply H10. intros c Hc. apply Hraw. by apply Hsh.
Qed.

(** chunk::copy stopped by a component that cannot be copied: the rows are the old ones. *)
Lemma copy_fail_repr s1 s2 k k2 rows rows2 (i : nat) r c0 :
  ck_repr s1 bl cs max k rows → ck_repr s2 bl2 cs2 max2 k2 rows2 →
  rows !! i = Some r → full cs r → length rows2 < max2 →
  c0 ∈ cs → c0 ∈ cs2 → u_copyable U c0 = false →
  ∃ k2', ck_copy U bl bl2 k i k2 = (k2', Throw InvalidArgument) ∧ ck_repr false bl2 cs2 max2 k2' rows2.
Proof.
  intros Hr Hr2 Hi Hf Hlt H01 H02 Hcop. pose proof (lookup_lt_Some _ _ _ Hi) as Hil.
  pose proof (cr_le _ _ _ _ _ _ Hr) as Hle.
  pose proof (bo_nd _ _ _ Hbl) as Hnd. apply NoDup_cons in Hnd as [Hent Hnd].
  unfold ck_copy, bind at 1 2, get. 
  destruct (decide _) as [Hbad|_]; [rewrite (cr_size _ _ _ _ _ _ Hr) in Hbad; lia|].
  rewrite (full_iff _ _ _ Hr2). rewrite bool_decide_false by lia.
  rewrite (forM_dense Hbl _ (λ c, if decide (c ∈ u_ent U :: cs2) then
     if u_copyable U c then construct_at (ad bl2 c (length rows2)) (default (CVal Moved) (rcell r c)) else throw InvalidArgument else ret tt)).
  2:{ intros e He st. rewrite contains2. unfold bool_decide. destruct (decide_rel _ _ _) as [Hc|Hc].
      - destruct (decide (e.1 ∈ u_ent U :: cs2)); [|done].
        unfold bind at 1. destruct (blk_at_ok Hbl2 e.1 st Hc) as (b & -> & Hb & _).
        replace (addr e.2 i) with (ad bl e.1 i) by (unfold ad; by rewrite He).
        rewrite (addr2 _ _ _ _ Hb He). rewrite (cr_size _ _ _ _ _ _ Hr2).
        pose proof (bl_lookup_inv Hbl _ _ He) as Hc1.
        rewrite (cell_eq _ _ _ _ _ _ Hr Hi Hf) by done.
        destruct (rcell_live (cs := cs) r e.1 Hf Hc1) as [x Hx]. rewrite Hx. cbn.
        unfold bind, of_opt, ret, copy_value. by destruct (u_copyable U e.1).
      - by destruct (decide (e.1 ∈ u_ent U :: cs2)). }
  assert (∀ l k0, ck_repr false bl2 cs2 max2 k0 rows2 → (∀ c, c ∈ l → c ∈ u_ent U :: cs) → 
    ∃ k', (forM l (λ c, if decide (c ∈ u_ent U :: cs2) then
     if u_copyable U c then construct_at (ad bl2 c (length rows2)) (default (CVal Moved) (rcell r c)) else throw InvalidArgument else ret tt) k0 = (k', Throw InvalidArgument) ∨
      forM l (λ c, if decide (c ∈ u_ent U :: cs2) then
     if u_copyable U c then construct_at (ad bl2 c (length rows2)) (default (CVal Moved) (rcell r c)) else throw InvalidArgument else ret tt) k0 = (k', Ok tt) ∧ c0 ∉ l) ∧
      ck_repr false bl2 cs2 max2 k' rows2) as Hloop.
  { induction l as [|c l IH]; intros k0 Hk0 Hl; cbn [forM].
    - exists k0. split; [right|done]. split; [done|]. apply not_elem_of_nil.
    - unfold bind. destruct (decide (c ∈ u_ent U :: cs2)) as [Hc2|Hc2].
      + destruct (u_copyable U c) eqn:Ecop.
        * cbn [construct_at]. set (k1 := Chunk _ _ _ _). destruct (IH k1) as (k' & Hrun & Hk').
          { destruct Hk0. split; try done. intros j r' c' x Hj Hc' Hx. cbn [k1 ck_mem].
            rewrite lookup_insert_ne; [by eapply cr_mem0|]. pose proof (lookup_lt_Some _ _ _ Hj).
            intros E. apply (ad_inj Hbl2) in E as [_ ?]; try done; lia. }
          { intros; apply Hl; by right. }
          exists k'. split; [|done]. destruct Hrun as [?|[? ?]]; [by left|right]. split; [done|].
          apply not_elem_of_cons. split; [|done]. intros ->. congruence.
        * exists k0. split; [by left|done].
      + cbn. destruct (IH k0 Hk0) as (k' & Hrun & Hk'). { intros; apply Hl; by right. }
        exists k'. split; [|done]. destruct Hrun as [?|[? ?]]; [by left|right]. split; [done|].
        apply not_elem_of_cons. split; [|done]. intros ->. apply Hc2. by right. }
  destruct (Hloop (u_ent U :: cs) k2) as (k' & Hrun & Hk'). { by eapply repr_weaken. } { done. }
  destruct Hrun as [->|[_ Hn]]; [by exists k'|]. exfalso. apply Hn. by right.
Qed.
End two.
End proofs.
