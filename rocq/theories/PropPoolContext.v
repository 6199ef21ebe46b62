(** C75: which threads may use the thread pool. *)
From Verif Require Import Base PoolContext.

Record pinv (st : pctx) : Prop := {
  pi_size : ∀ (p : nat) o, px_pools st !! p = Some o → 0 < pl_size o;
  pi_maker : ∀ (p : nat) o, px_pools st !! p = Some o → ∃ k, pl_maker o = own k;
  pi_inst : ∀ (p : nat) u n, exists_pool st p u n → px_instance st = Some p;
  pi_live : ∀ p, px_instance st = Some p → ∃ u n, exists_pool st p u n;
  pi_static : ∀ p, px_static st = Some p → p < length (px_pools st);
  pi_cur : ∀ (p : nat) u n, exists_pool st p u n → px_current st !! u = Some (p, 0) ∧ ∀ i, 1 ≤ i < n → px_current st !! worker p i = Some (p, i);
  pi_back : ∀ t (p i : nat), px_current st !! t = Some (p, i) →
    ∃ o, px_pools st !! p = Some o ∧ (t = pl_maker o ∨ ∃ i, t = worker p i ∧ 1 ≤ i < pl_size o) }.

Lemma pinv_init : pinv pctx_init.
Proof. split; unfold exists_pool; cbn; try done; intros *; rewrite ?lookup_nil, ?lookup_empty; done. Qed.

Lemma cur_fold (p n : nat) (m : gmap (nat + nat * nat) (nat * nat)) (t : nat + nat * nat) :
  foldr (λ i m, <[worker p i := (p, i)]> m) m (seq 1 n) !! t =
  match t with inr (q, i) => if decide (q = p ∧ 1 ≤ i < S n) then Some (p, i) else m !! t | inl _ => m !! t end.
Proof.
  assert (∀ l : list nat, foldr (λ i m, <[worker p i := (p, i)]> m) m l !! t =
    match t with inr (q, i) => if decide (q = p ∧ i ∈ l) then Some (p, i) else m !! t | inl _ => m !! t end) as H.
  { induction l as [|x l IH]; cbn [foldr].
    - destruct t as [k|[q i]]; [done|]. rewrite decide_False; [done|]. by intros [_ ?%elem_of_nil].
    - destruct (decide (t = worker p x)) as [->|Hn].
      + rewrite lookup_insert. unfold worker. rewrite decide_True; [done|]. split; [done|by left].
      + rewrite lookup_insert_ne by done. rewrite IH. destruct t as [k|[q i]]; [done|].
        destruct (decide (q = p ∧ i ∈ l)) as [[-> Hi]|Hd].
        * rewrite decide_True; [done|]. split; [done|by right].
        * rewrite decide_False; [done|]. intros [-> [->|Hi]%elem_of_cons]; [done|]. by apply Hd. }
  rewrite H. destruct t as [k|[q i]]; [done|]. apply decide_ext. rewrite elem_of_seq. done.
Qed.

Lemma construct_inv st t n st' o : pinv st → running st t → px_construct t n st = (st', o) → o ≠ PUB →
  0 < n ∧ (o = PThrow ∧ st' = st ∧ (∃ p, px_instance st = Some p) ∨
    o = POk ∧ px_instance st = None ∧ pinv st' ∧ exists_pool st' (length (px_pools st)) t n ∧ px_static st' = px_static st ∧
    px_instance st' = Some (length (px_pools st)) ∧ length (px_pools st') = S (length (px_pools st))).
Proof.
  intros Hi Ht E Ho. unfold px_construct in E. case_decide; [congruence|]. split; [lia|].
  destruct (px_instance st) as [q|] eqn:Hq; injection E as <- <-; [left; eauto|]. right.
  assert (∀ (p : nat) u k, ¬ exists_pool st p u k) as Hno.
  { intros p u k Hp. apply (pi_inst _ Hi) in Hp. congruence. }
  assert (∃ k, t = own k) as [k ->].
  { destruct t as [k|[q i]]; [by exists k|]. destruct Ht as (u & m & Hp & _). by apply Hno in Hp. }
  assert (∀ (p : nat) o, (px_pools st ++ [PoolObj (own k) n true]) !! p = Some o →
    px_pools st !! p = Some o ∨ p = length (px_pools st) ∧ o = PoolObj (own k) n true) as Happ.
  { intros p o Hp. apply lookup_app_Some in Hp as [Hp|[Hle Hp]]; [by left|]. right. apply list_lookup_singleton_Some in Hp as [? <-]. split; [lia|done]. }
  set (P := length (px_pools st)).
  assert (exists_pool (PCtx (Some P) (px_pools st ++ [PoolObj (own k) n true]) (px_static st)
     (foldr (λ i m, <[worker P i := (P, i)]> m) (<[own k := (P, 0)]> (px_current st)) (seq 1 (n - 1)))) P (own k) n) as Hnew
    by (unfold exists_pool; cbn; by apply list_lookup_middle).
  split; [done|]. split; [done|]. split; [|split; [done|]; split; [done|]; split; [done|]; cbn; rewrite app_length; cbn; lia].
  split; cbn.
  - intros p o [Hp|[_ ->]]%Happ; [by eapply pi_size|cbn; lia].
  - intros p o [Hp|[_ ->]]%Happ; [by eapply pi_maker|by exists k].
  - intros p u m Hp. apply Happ in Hp as [Hp|[-> _]]; [by apply Hno in Hp|done].
  - intros p [= <-]. eauto.
  - intros p Hp%(pi_static _ Hi). rewrite app_length. lia.
  - intros p u m Hp. apply Happ in Hp as [Hp|[-> [= -> ->]]]; [by apply Hno in Hp|]. split.
    + rewrite cur_fold. unfold own. by rewrite lookup_insert.
    + intros i Hin. rewrite cur_fold. unfold worker. rewrite decide_True; [done|]. split; [done|lia].
  - intros t p i Hc. rewrite cur_fold in Hc.
    assert (<[own k := (P, 0)]> (px_current st) !! t = Some (p, i) → ∃ o, (px_pools st ++ [PoolObj (own k) n true]) !! p = Some o ∧
      (t = pl_maker o ∨ ∃ i0, t = worker p i0 ∧ 1 ≤ i0 < pl_size o)) as Hold.
    { intros [[<- [= <- <-]]|[_ Hold]]%lookup_insert_Some.
      - exists (PoolObj (own k) n true). split; [by apply list_lookup_middle|by left].
      - destruct (pi_back _ Hi _ _ _ Hold) as (o & Ho' & Hm). exists o. split; [by apply lookup_app_l_Some|done]. }
    destruct t as [j|[q x]]; [by apply Hold|]. case_decide as Hd; [|by apply Hold]. destruct Hd as [-> Hx]. injection Hc as <- <-.
    exists (PoolObj (own k) n true). split; [by apply list_lookup_middle|]. right. exists x. cbn. split; [done|lia].
Qed.

Lemma get_inv hw st t st' o p : pinv st → running st t → px_get hw t st = (st', (o, p)) → o ≠ PUB →
  o = POk ∧ pinv st' ∧ px_instance st' = Some p ∧
  (px_instance st = Some p ∧ st' = st ∨
   px_instance st = None ∧ px_static st = None ∧ 0 < hw ∧ exists_pool st' p t hw).
Proof.
  intros Hi Ht E Ho. unfold px_get in E. destruct (px_instance st) as [q|] eqn:Hq; [injection E as <- <- <-; split_and!; auto|].
  destruct (px_static st) as [q|] eqn:Hs.
  - destruct (px_pools st !! q) as [[u n []]|] eqn:Hp; injection E as <- <- <-; cbn in *; try done.
    apply (pi_inst _ Hi) in Hp. congruence.
  - destruct (px_construct t hw st) as [st1 o1] eqn:Ec. destruct o1.
    + injection E as <- <- <-. destruct (construct_inv _ _ _ _ _ Hi Ht Ec ltac:(done)) as (Hn & [[? _]|(_ & _ & Hi1 & Hp1 & Hs1 & Hq1 & Hl1)]); [done|].
      split; [done|]. split; [|split; [done|right; done]]. destruct Hi1 as [A B C D F G K].
      split; unfold exists_pool in *; cbn; try done; try by (rewrite <- Hq1). intros p [= <-]. rewrite Hl1. lia.
    + injection E as <- <- <-. destruct (construct_inv _ _ _ _ _ Hi Ht Ec ltac:(done)) as (Hn & [(_ & _ & [? ?])|[? _]]); congruence.
    + injection E as <- <- <-. destruct (construct_inv _ _ _ _ _ Hi Ht Ec ltac:(done)) as (Hn & [[? _]|[? _]]); done.
    + by injection E as <- <- <-.
Qed.

Lemma submit_iff st t : pinv st → px_submit t st = POk ↔ member st t.
Proof.
  intros Hi. unfold px_submit. split.
  - intros H. destruct (px_current st !! t) as [[p i]|] eqn:Hc; [|done]. destruct (pi_back _ Hi _ _ _ Hc) as (o & Hp & Hm).
    rewrite Hp in H. destruct o as [u n []]; [|done]. exists p, u, n. done.
  - intros (p & u & n & Hp & Hm). destruct (pi_cur _ Hi _ _ _ Hp) as [C1 C2]. unfold exists_pool in Hp.
    destruct Hm as [->|(i & -> & Hin)]; [by rewrite C1, Hp|by rewrite C2, Hp].
Qed.
Lemma submit_out st t : px_submit t st = POk ∨ px_submit t st = PUB.
Proof. unfold px_submit. destruct (_ !! _) as [[p i]|]; [|auto]. destruct (_ !! _) as [[? ? []]|]; auto. Qed.

Lemma destroy_inv st t p st' : pinv st → px_destroy t p st = (st', POk) → pinv st' ∧ px_instance st' = None ∧ px_static st' = px_static st.
Proof.
  intros Hi E. unfold px_destroy in E. destruct (px_pools st !! p) as [[u n []]|] eqn:Hp; cbn in E; [|done..].
  destruct (is_worker t p n); [done|]. injection E as <-. split; [|done].
  assert (∀ (q : nat) o, <[p := PoolObj u n false]> (px_pools st) !! q = Some o → ∃ o', px_pools st !! q = Some o' ∧ pl_maker o' = pl_maker o ∧
    pl_size o' = pl_size o ∧ (pl_live o = true → q ≠ p)) as Hq.
  { intros q o [(-> & <- & _)|[Hn Hq]]%list_lookup_insert_Some; [exists (PoolObj u n true); done|]. exists o. by split_and!. }
  assert (∀ (q : nat) v m, <[p := PoolObj u n false]> (px_pools st) !! q = Some (PoolObj v m true) → False) as Hno.
  { intros q v m Hx. pose proof Hx as Hx'. apply Hq in Hx as (o' & Ho & E1 & E2 & Hne). specialize (Hne eq_refl). rewrite list_lookup_insert_ne in Hx' by done.
    apply (pi_inst _ Hi) in Hx'. apply (pi_inst _ Hi) in Hp. congruence. }
  split; unfold exists_pool; cbn.
  - intros q o (o' & Ho & E1 & E2 & _)%Hq. rewrite <- E2. by eapply pi_size.
  - intros q o (o' & Ho & E1 & E2 & _)%Hq. rewrite <- E1. by eapply pi_maker.
  - intros q v m Hx. by apply Hno in Hx.
  - done.
  - intros q Hx%(pi_static _ Hi). by rewrite insert_length.
  - intros q v m Hx. by apply Hno in Hx.
  - intros v q i (o & Ho & Hm)%(pi_back _ Hi). destruct (decide (q = p)) as [->|Hn].
    + exists (PoolObj u n false). split; [apply list_lookup_insert; by eapply lookup_lt_Some|]. rewrite Hp in Ho. injection Ho as <-. done.
    + exists o. by rewrite list_lookup_insert_ne.
Qed.

Lemma preach_inv hw st : preach hw st → pinv st.
Proof.
  induction 1 as [|st t c st' o Hr IH Ht E H1 H2]; [apply pinv_init|]. destruct c; cbn [pstep] in E.
  - destruct (construct_inv _ _ _ _ _ IH Ht E H1) as (_ & [(_ & -> & _)|(_ & _ & ? & _)]); done.
  - destruct o; try done.
    + by eapply destroy_inv.
    + unfold px_destroy in E. destruct (_ !! _) as [[u n []]|]; cbn in E; try done. by destruct (is_worker _ _ _).
  - destruct (px_get hw t st) as [st1 [o1 p1]] eqn:Eg. injection E as <- <-. by destruct (get_inv _ _ _ _ _ _ IH Ht Eg H1) as (_ & ? & _).
  - by injection E as <- <-.
  - unfold px_parallel_for in E. destruct (px_get hw t st) as [st1 [o1 p1]] eqn:Eg.
    destruct (decide (o1 = PUB)) as [->|Hn]; [by injection E as <- <-|]. destruct (get_inv _ _ _ _ _ _ IH Ht Eg Hn) as (-> & ? & _).
    destruct (_ !! _) as [[u n []]|]; cbn in E; [case_decide|..]; by injection E as <- <-.
  - unfold px_batch in E. destruct (px_get hw t st) as [st1 [o1 p1]] eqn:Eg.
    destruct (decide (o1 = PUB)) as [->|Hn]; [by injection E as <- <-|]. destruct (get_inv _ _ _ _ _ _ IH Ht Eg Hn) as (-> & ? & _).
    case_decide; [by injection E as <- <-|]. destruct (_ !! _) as [[u n []]|]; cbn in E; by injection E as <- <-.
Qed.

(** At most one pool exists.  A second constructor throws and changes nothing, the first one succeeds; afterwards its
    members are the caller and the workers, and no other thread. *)
Theorem C75_one_pool hw st : preach hw st →
  (∀ p q u v m n, exists_pool st p u m → exists_pool st q v n → p = q) ∧
  ∀ t n, running st t → 0 < n →
    (∀ p u m, exists_pool st p u m → pstep hw t (PConstruct n) st = (st, PThrow)) ∧
    ((∀ p u m, ¬ exists_pool st p u m) → ∃ st', pstep hw t (PConstruct n) st = (st', POk) ∧
       (∃ p, exists_pool st' p t n) ∧ ∀ v, member st' v ↔ v = t ∨ ∃ p i, exists_pool st' p t n ∧ v = worker p i ∧ 1 ≤ i < n).
Proof.
  intros Hi%preach_inv. split.
  { intros p q u v m n H1%(pi_inst _ Hi) H2%(pi_inst _ Hi). congruence. }
  intros t n Ht Hn. cbn [pstep]. split.
  - intros p u m Hp%(pi_inst _ Hi). unfold px_construct. rewrite decide_False by lia. by rewrite Hp.
  - intros Hno. destruct (px_construct t n st) as [st' o] eqn:E.
    assert (px_instance st = None) as Hin.
    { destruct (px_instance st) as [p|] eqn:Hp; [|done]. destruct (pi_live _ Hi _ Hp) as (u & m & Hx). by apply Hno in Hx. }
    assert (o = POk) as ->.
    { unfold px_construct in E. rewrite decide_False in E by lia. rewrite Hin in E. congruence. }
    destruct (construct_inv _ _ _ _ _ Hi Ht E ltac:(done)) as (_ & [[? _]|(_ & _ & Hi1 & Hp1 & Hs1 & Hq1 & Hl1)]); [done|].
    exists st'. split; [done|]. split; [eauto|]. intros v. split.
    + intros (p & u & m & Hp & Hm). assert (p = length (px_pools st)) as ->.
      { apply (pi_inst _ Hi1) in Hp. congruence. }
      unfold exists_pool in Hp, Hp1. rewrite Hp1 in Hp. injection Hp as <- <-. destruct Hm as [->|(i & -> & Hx)]; [by left|right; eauto 8].
    + intros [->|(p & i & Hp & -> & Hx)]; [exists (length (px_pools st)), t, n; auto|exists p, t, n; eauto].
Qed.

(** submit() and wait() are defined exactly for the thread that constructed the existing pool and for its workers. *)
Theorem C75_submit hw st t : preach hw st → running st t → (pstep hw t PSubmit st).2 = POk ↔ member st t.
Proof. intros Hi%preach_inv Ht. by apply submit_iff. Qed.

(** The first calls for which no pool exists: get() constructs one, once, and its caller becomes a member. *)
Definition makes_one (hw : nat) (st : pctx) : Prop := (∀ p u n, ¬ exists_pool st p u n) ∧ px_static st = None ∧ 0 < hw.

Lemma get_when hw st t : pinv st → running st t → (px_get hw t st).2.1 = POk ↔ (∃ p u n, exists_pool st p u n) ∨ makes_one hw st.
Proof.
  intros Hi Ht. destruct (px_get hw t st) as [st' [o p]] eqn:E. cbn [fst snd]. split.
  - intros ->. destruct (get_inv _ _ _ _ _ _ Hi Ht E ltac:(done)) as (_ & Hi' & Hp & [[Hq ->]|(Hq & Hs & Hh & Hx)]).
    + left. destruct (pi_live _ Hi _ Hq) as (u & n & ?). eauto.
    + right. split_and!; [|done..]. intros q u n Hy%(pi_inst _ Hi). congruence.
  - intros [(q & u & n & Hq%(pi_inst _ Hi))|(Hno & Hs & Hh)]; unfold px_get in E.
    + rewrite Hq in E. congruence.
    + assert (px_instance st = None) as Hin.
      { destruct (px_instance st) as [q|] eqn:Hp; [|done]. destruct (pi_live _ Hi _ Hp) as (u & m & Hx). by apply Hno in Hx. }
      unfold px_construct in E. rewrite Hin, Hs in E. rewrite decide_False in E by lia. congruence.
Qed.

(** parallel_for is defined exactly when its caller is a member of the existing pool, or the range has fewer elements
    than that pool has workers, or get() makes the pool. *)
Theorem C75_parallel_for hw st t len : preach hw st → running st t →
  (pstep hw t (PParallelFor len) st).2 = POk ↔
    member st t ∨ (∃ p u n, exists_pool st p u n ∧ len < n) ∨ makes_one hw st.
Proof.
  intros Hi%preach_inv Ht. cbn [pstep]. unfold px_parallel_for. pose proof (get_when hw st t Hi Ht) as Hg.
  destruct (px_get hw t st) as [st' [o p]] eqn:E. cbn [fst snd] in Hg.
  destruct (decide (o = POk)) as [->|Hno].
  - destruct (get_inv _ _ _ _ _ _ Hi Ht E ltac:(done)) as (_ & Hi' & Hp & Hc). destruct (pi_live _ Hi' _ Hp) as (u & n & Hx).
    pose proof (pi_size _ Hi' _ _ Hx) as Hn. cbn in Hn. pose proof Hx as Hx'. unfold exists_pool in Hx'. rewrite Hx'. cbn [pl_live pl_size].
    assert ((if decide (len / n < 1) then (st', POk) else (st', px_submit t st')).2 = POk ↔ len < n ∨ member st' t) as ->.
    { rewrite <- (submit_iff st' t Hi'). case_decide as Hd; cbn [snd].
      - split; [|done]. intros _. left. destruct (decide (len < n)); [done|]. assert (1 ≤ len / n); [|lia]. apply Nat.div_le_lower_bound; lia.
      - split; [by right|]. intros [Hl|]; [|done]. rewrite Nat.div_small in Hd by done. lia. }
    destruct Hc as [[Hq ->]|(Hq & Hs & Hh & Hy)].
    + split.
      * intros [Hl|Hm]; [right; left; eauto|by left].
      * intros [Hm|[(p' & u' & n' & Hy & Hl)|(Hno & _)]]; [by right|left|by apply Hno in Hx].
        assert (p' = p) as -> by (apply (pi_inst _ Hi) in Hy; congruence). unfold exists_pool in Hy. rewrite Hy in Hx'. congruence.
    + split; [|intros _; right; exists p, t, hw; auto]. intros _. right. right. split_and!; [|done..].
      intros q v m Hz%(pi_inst _ Hi). congruence.
  - assert (match o with POk => match px_pools st' !! p with Some x => if pl_live x then if decide (len / pl_size x < 1) then (st', POk) else (st', px_submit t st') else (st', PUB) | None => (st', PUB) end | _ => (st', o) end = (st', o)) as -> by by destruct o.
    cbn [snd]. split; [done|]. intros H. exfalso. apply Hno, Hg. destruct H as [(q & u & n & Hx & _)|[(q & u & n & Hx & _)|]]; eauto 6.
Qed.

(** Likewise a batch of systems, for which there is no shortcut unless it is empty. *)
Theorem C75_batch hw st t len : preach hw st → running st t →
  (pstep hw t (PBatch len) st).2 = POk ↔
    member st t ∨ (∃ p u n, exists_pool st p u n ∧ len = 0) ∨ makes_one hw st.
Proof.
  intros Hi%preach_inv Ht. cbn [pstep]. unfold px_batch. pose proof (get_when hw st t Hi Ht) as Hg.
  destruct (px_get hw t st) as [st' [o p]] eqn:E. cbn [fst snd] in Hg.
  destruct (decide (o = POk)) as [->|Hno].
  - destruct (get_inv _ _ _ _ _ _ Hi Ht E ltac:(done)) as (_ & Hi' & Hp & Hc). destruct (pi_live _ Hi' _ Hp) as (u & n & Hx).
    pose proof Hx as Hx'. unfold exists_pool in Hx'. rewrite Hx'. cbn [pl_live].
    assert ((if decide (len = 0) then (st', POk) else (st', px_submit t st')).2 = POk ↔ len = 0 ∨ member st' t) as ->.
    { rewrite <- (submit_iff st' t Hi'). case_decide as Hd; cbn [snd]; tauto. }
    destruct Hc as [[Hq ->]|(Hq & Hs & Hh & Hy)].
    + split.
      * intros [Hl|Hm]; [right; left; eauto 6|by left].
      * intros [Hm|[(p' & u' & n' & Hy & Hl)|(Hno & _)]]; [by right|by left|by apply Hno in Hx].
    + split; [|intros _; right; exists p, t, hw; auto]. intros _. right. right. split_and!; [|done..].
      intros q v m Hz%(pi_inst _ Hi). congruence.
  - assert (match o with POk => if decide (len = 0) then (st', POk) else match px_pools st' !! p with Some x => if pl_live x then (st', px_submit t st') else (st', PUB) | None => (st', PUB) end | _ => (st', o) end = (st', o)) as -> by by destruct o.
    cbn [snd]. split; [done|]. intros H. exfalso. apply Hno, Hg. destruct H as [(q & u & n & Hx & _)|[(q & u & n & Hx & _)|]]; eauto 6.
Qed.

(** * The claim, and its failures *)

(** The claim: every thread that runs may call parallel_for. *)
Definition any_thread (hw : nat) : Prop :=
  ∀ st t len, preach hw st → running st t → (pstep hw t (PParallelFor len) st).2 = POk.

(** A history of calls of threads, with its outcomes. *)
Fixpoint pruns (hw : nat) (l : list ((nat + nat * nat) * pcall)) (st : pctx) : list pout :=
  match l with [] => [] | (t, c) :: l => let '(st', o) := pstep hw t c st in o :: pruns hw l st' end.
Fixpoint pend (hw : nat) (l : list ((nat + nat * nat) * pcall)) (st : pctx) : pctx :=
  match l with [] => st | (t, c) :: l => pend hw l (pstep hw t c st).1 end.

Lemma pend_reach hw l : ∀ st, preach hw st → Forall (λ x, ∃ k, x.1 = own k) l → Forall (λ o, o = POk) (pruns hw l st) → preach hw (pend hw l st).
Proof.
  induction l as [|[t c] l IH]; intros st Hr Hl Ho; [done|]. cbn [pruns pend] in *. apply Forall_cons in Hl as [[k Hk] Hl]. cbn [fst] in Hk.
  destruct (pstep hw t c st) as [st' o] eqn:E. apply Forall_cons in Ho as [-> Ho]. cbn [fst]. apply IH; [|done..].
  eapply PReachS; [done| |exact E|done..]. by rewrite Hk.
Qed.

(** The pool was constructed by thread 0.  For every size of it and every range that has as many elements, thread 1
    reads a null pointer; so it does in submit(). *)
Theorem C75_foreign_refuted hw n len : 0 < n → n ≤ len →
  ∃ st, preach hw st ∧ running st (own 1) ∧ exists_pool st 0 (own 0) n ∧ px_current st !! own 1 = None ∧
    (pstep hw (own 1) (PParallelFor len) st).2 = PUB ∧ (pstep hw (own 1) PSubmit st).2 = PUB.
Proof.
  intros Hn Hl. pose (st := (pstep hw (own 0) (PConstruct n) pctx_init).1). exists st.
  assert (pstep hw (own 0) (PConstruct n) pctx_init = (st, POk)) as E.
  { unfold st. cbn [pstep]. unfold px_construct. rewrite decide_False by lia. done. }
  assert (st = PCtx (Some 0) [PoolObj (own 0) n true] None (foldr (λ i m, <[worker 0 i := (0, i)]> m) (<[own 0 := (0, 0)]> ∅) (seq 1 (n - 1)))) as Est.
  { unfold st. cbn [pstep]. unfold px_construct. rewrite decide_False by lia. done. }
  assert (preach hw st) as Hr by (apply (PReachS hw pctx_init (own 0) (PConstruct n) st POk); [apply PReach0|exact I|exact E|discriminate|discriminate]).
  assert (exists_pool st 0 (own 0) n) as Hp by by rewrite Est.
  assert (px_current st !! own 1 = None) as Hc.
  { rewrite Est. cbn [px_current]. rewrite cur_fold. unfold own. by rewrite lookup_insert_ne. }
  assert (px_submit (own 1) st = PUB) as Hs by (unfold px_submit; by rewrite Hc).
  split_and!; try done. cbn [pstep]. unfold px_parallel_for, px_get. assert (px_instance st = Some 0) as -> by by rewrite Est.
  unfold exists_pool in Hp. rewrite Hp. cbn [pl_live pl_size]. rewrite decide_False; [done|].
  assert (1 ≤ len / n); [|lia]. apply Nat.div_le_lower_bound; lia.
Qed.

(** Thread 0 constructs a pool and destroys it, thread 1 constructs one.  The pool exists, thread 0 has a worker, of
    the destroyed pool. *)
Definition handed : list ((nat + nat * nat) * pcall) :=
  [(own 0, PConstruct 2); (own 0, PParallelFor 2); (own 0, PDestroy 0); (own 1, PConstruct 2); (own 1, PParallelFor 2)].
Theorem C75_handed_over_refuted hw : ∃ st, preach hw st ∧ exists_pool st 1 (own 1) 2 ∧ px_current st !! own 0 = Some (0, 0) ∧
  (pstep hw (own 0) (PParallelFor 2) st).2 = PUB ∧ (pstep hw (own 1) (PParallelFor 2) st).2 = POk.
Proof.
  exists (pend hw handed pctx_init). split; [|by split_and!; vm_compute].
  apply pend_reach; [apply PReach0| |].
  - repeat (apply Forall_cons; split; [by eexists|]). by apply Forall_nil.
  - assert (pruns hw handed pctx_init = [POk; POk; POk; POk; POk]) as -> by by vm_compute. by repeat constructor.
Qed.

(** The pool that get() made lasts until the end of the program; calls in destructors of objects that outlive it are
    undefined, for every range and every thread. *)
Theorem C75_after_exit_refuted hw t len : 0 < hw →
  ∃ st, preach hw st ∧ (∀ p u n, ¬ exists_pool st p u n) ∧ (running st t → (pstep hw t (PParallelFor len) st).2 = PUB).
Proof.
  intros Hh.
  pose (m := foldr (λ i m, <[worker 0 i := (0, i)]> m) (<[own 0 := (0, 0)]> ∅) (seq 1 (hw - 1)) : gmap (nat + nat * nat) (nat * nat)).
  pose (s1 := PCtx (Some 0) [PoolObj (own 0) hw true] (Some 0) m). pose (s2 := PCtx None [PoolObj (own 0) hw false] (Some 0) m).
  assert (preach hw s1) as H1.
  { eapply (PReachS hw pctx_init (own 0) PGet s1 POk); [apply PReach0|done| |done..]. cbn [pstep]. unfold px_get, px_construct. cbn [px_instance px_static pctx_init].
    rewrite decide_False by lia. done. }
  assert (preach hw s2) as H2 by (eapply (PReachS hw s1 (own 0) (PDestroy 0) s2 POk); done).
  exists s2. split; [done|]. split; [|done]. intros p u n Hp. unfold exists_pool, s2 in Hp. cbn [px_pools] in Hp.
  apply list_lookup_singleton_Some in Hp as [_ [=]].
Qed.

Corollary C75_refuted hw : ¬ any_thread hw.
Proof.
  intros H. destruct (C75_handed_over_refuted hw) as (st & Hr & _ & _ & Hu & _). rewrite (H st (own 0) 2 Hr) in Hu; done.
Qed.

(** * Examples *)

(** A pool of four workers: the workers may nest parallel_for, the pool is destroyed, and a second one built by
    the same thread is used by it again. *)
Definition nested : list ((nat + nat * nat) * pcall) :=
  [(own 0, PConstruct 4); (own 0, PParallelFor 9); (worker 0 1, PParallelFor 9); (worker 0 3, PSubmit); (own 1, PParallelFor 3);
   (own 1, PConstruct 2); (own 0, PDestroy 0); (own 0, PConstruct 2); (own 0, PBatch 5); (worker 1 1, PParallelFor 2)].
Example ex_C75_nested hw : pruns hw nested pctx_init = [POk; POk; POk; POk; POk; PThrow; POk; POk; POk; POk].
Proof. by vm_compute. Qed.

(** The thread of the first parallel_for becomes the thread of the pool. *)
Example ex_C75_first : pruns 8 [(own 3, PParallelFor 100); (own 3, PBatch 2); (own 0, PParallelFor 7); (own 0, PParallelFor 8)] pctx_init =
  [POk; POk; POk; PUB].
Proof. by vm_compute. Qed.

(** The hypotheses hold: after the example above with thread 1 running. *)
Example ex_C75_member : let st := pend 8 [(own 0, PConstruct 4)] pctx_init in
  member st (own 0) ∧ member st (worker 0 3) ∧ running st (worker 0 3) ∧ running st (own 1) ∧ ¬ member st (own 1) ∧ makes_one 8 pctx_init.
Proof.
  cbn zeta. assert (exists_pool (pend 8 [(own 0, PConstruct 4)] pctx_init) 0 (own 0) 4) as Hp by by vm_compute.
  split_and!.
  - exists 0, (own 0), 4. auto.
  - exists 0, (own 0), 4. split; [done|]. right. exists 3. split; [done|lia].
  - exists (own 0), 4. split; [done|lia].
  - done.
  - intros (p & u & n & Hq & Hm). unfold exists_pool in Hq. change (px_pools _) with [PoolObj (own 0) 4 true] in Hq.
    apply list_lookup_singleton_Some in Hq as [-> [= <- <-]]. destruct Hm as [[=]|(i & [=] & _)].
  - split_and!; [intros p u n [=]|done|lia].
Qed.

Print Assumptions C75_one_pool.
Print Assumptions C75_submit.
Print Assumptions C75_parallel_for.
Print Assumptions C75_batch.
Print Assumptions C75_foreign_refuted.
Print Assumptions C75_handed_over_refuted.
Print Assumptions C75_after_exit_refuted.
Print Assumptions C75_refuted.
