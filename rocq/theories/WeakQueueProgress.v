(** No operation of the work-stealing queue with its memory orders ever gets stuck: there is always a
    message that a load can read. *)
From Verif Require Import Base WeakMem WSQueue WeakQueue WeakQueueProofs.
Ltac Zify.zify_post_hook ::= Z.div_mod_to_equations.
Local Open Scope Z_scope.

Section progress.
Context {A : Type}.
Variables array_store array_load : order.
Notation item := (A * gset ev)%type.
Notation wstep := (wstep (A:=A) array_store array_load).
Notation wowner := (wowner (A:=A) array_store).
Notation wthief := (wthief (A:=A) array_load).
Implicit Types (s : wsys A) (x : item).

(** The number of messages of a variable. *)
Definition lim s (k : loc) : nat :=
  match k with
  | LTop => length (w_top s) | LBot => length (w_bot s) | LArr => length (w_arr s)
  | LCell a i => match w_arrs s !! a with Some ar => length (cell ar i) | None => 1 end
  end.
Definition vok s (v : qview) : Prop := ∀ k : loc, (ts v k < lim s k)%nat.
Definition tok s (t : qtview) : Prop := vok s (t_cur t) ∧ vok s (t_rel t) ∧ vok s (t_acq t).
Definition scok s : Prop := ∀ k : loc, (default 0%nat (w_sc s !! k) < lim s k)%nat.
Definition mok {V} s (h : list (qmsg V)) : Prop := Forall (λ m, vok s (m_view m)) h.

Definition binv s : Prop :=
  tok s (w_to s) ∧ Forall (λ pt, tok s pt.2) (w_th s) ∧ scok s ∧
  mok s (w_top s) ∧ mok s (w_bot s) ∧ mok s (w_arr s) ∧
  (∀ a ar i, w_arrs s !! a = Some ar → mok s (cell ar i)) ∧
  Forall (λ m, (m_val m < length (w_arrs s))%nat) (w_arr s) ∧
  match w_opc s with
  | WPushC _ _ a | WPopA _ a | WPopB _ a | WPopF _ a | WPopC _ _ a => (a < length (w_arrs s))%nat
  | _ => True
  end ∧
  Forall (λ pt, match pt.1 with VC _ a => (a < length (w_arrs s))%nat | _ => True end) (w_th s).

Lemma vok_mono s s' v : (∀ k, (lim s k <= lim s' k)%nat) → vok s v → vok s' v.
Proof. intros Hl Hv k. specialize (Hl k). specialize (Hv k). lia. Qed.
Lemma tok_mono s s' t : (∀ k, (lim s k <= lim s' k)%nat) → tok s t → tok s' t.
Proof. intros Hl (H1 & H2 & H3). split; [|split]; by eapply vok_mono. Qed.
Lemma mok_mono {V} s s' (h : list (qmsg V)) : (∀ k, (lim s k <= lim s' k)%nat) → mok s h → mok s' h.
Proof. intros Hl Hh. eapply Forall_impl; [exact Hh|]. intros m. by apply vok_mono. Qed.
Lemma vok_join s v w : vok s v → vok s w → vok s (vjoin v w).
Proof. intros Hv Hw k. rewrite ts_join. specialize (Hv k). specialize (Hw k). lia. Qed.
Lemma vok_at s v k n : vok s v → (n < lim s k)%nat → vok s (vat k n).
Proof. intros Hv Hn k'. rewrite ts_at. specialize (Hv k'). case_decide; subst; lia. Qed.
Lemma vok_ev s v e : vok s v → vok s (vev e).
Proof. intros Hv k. rewrite ts_vev. specialize (Hv k). lia. Qed.
Lemma vok_empty s v : vok s v → vok s vempty.
Proof. intros Hv k. rewrite ts_empty. specialize (Hv k). lia. Qed.
Lemma tok_learn s v t : tok s t → vok s v → tok s (learn v t).
Proof. intros (H1 & H2 & H3) Hv. split; [by apply vok_join|]. split; [done|]. by apply vok_join. Qed.

Lemma tok_load {V} s (o : order) (k : loc) (n : nat) (h : list (qmsg V)) (t : qtview) r t' :
  load o k n h t = Some (r, t') → tok s t → mok s h → lim s k = length h → tok s t'.
Proof.
  unfold load. case_bool_decide; [done|]. destruct (h !! n) as [m|] eqn:Hm; [|done]. cbn [mbind option_bind].
  intros Heq (H1 & H2 & H3) Hh Hl. apply (inj Some) in Heq. apply (inj2 pair) in Heq as [_ <-].
  assert (vok s (vat k n)) as Hat by (eapply vok_at; [exact H1|]; apply lookup_lt_Some in Hm; lia).
  assert (vok s (m_view m)) as Hmv by exact (proj1 (Forall_lookup _ _) Hh n m Hm).
  split; [|split; [done|]]; cbn [t_cur t_acq]; (apply vok_join; [by apply vok_join|]); [|done].
  destruct (acquires o); [done|by eapply vok_empty].
Qed.

(** A store, in the state where it has been done. *)
Lemma store_ok {V} s' (o : order) (k : loc) (x : V) (h : list (qmsg V)) (t : qtview) :
  tok s' t → mok s' h → lim s' k = S (length h) → mok s' (store o k x h t).1 ∧ tok s' (store o k x h t).2.
Proof.
  intros Ht Hh Hl. pose proof Ht as (H1 & H2 & H3).
  assert (vok s' (vat k (length h))) as Hat by (eapply vok_at; [exact H1|lia]).
  unfold store. cbn [fst snd]. split; [|by apply tok_learn].
  apply Forall_app. split; [done|]. constructor; [|done]. cbn [m_view]. apply vok_join; [|done]. by destruct (releases o).
Qed.

Lemma cas_ok s s' (k : loc) (ex de : Z) (n : nat) (h : list (qmsg Z)) (t : qtview) (ok : bool) (h' : list (qmsg Z)) (t' : qtview) :
  cas k ex de n h t = Some (ok, h', t') → tok s t → mok s h → lim s k = length h →
  (∀ j, (lim s j <= lim s' j)%nat) → lim s' k = length h' →
  tok s' t' ∧ mok s' h' ∧ (length h <= length h')%nat.
Proof.
  unfold cas. case_bool_decide; [done|]. destruct (h !! n) as [m|] eqn:Hm; [|done]. cbn [mbind option_bind].
  intros Heq Ht Hh Hl Hll Hl'. revert Heq. case_bool_decide.
  - case_bool_decide as Hlast; [|done]. intros Heq. apply (inj Some) in Heq. apply (inj2 pair) in Heq as [Heq <-].
    apply (inj2 pair) in Heq as [_ <-]. rewrite app_length in Hl'. cbn in Hl'.
    assert (tok s' (learn (vjoin (m_view m) (vat k (S n))) t)) as Hlt.
    { apply tok_learn; [by eapply tok_mono|]. apply vok_join.
      - eapply vok_mono; [exact Hll|]. exact (proj1 (Forall_lookup _ _) Hh n m Hm).
      - eapply (vok_at s' (t_cur t)); [eapply vok_mono; [exact Hll|apply Ht]|]. lia. }
    split; [done|]. split; [|rewrite app_length; cbn; lia]. apply Forall_app. split; [by eapply mok_mono|].
    constructor; [|done]. apply Hlt.
  - destruct (load _ _ _ _ _) as [[r tr]|] eqn:Hld; [|done]. cbn [mbind option_bind snd]. intros [= <- <- <-].
    split; [|split; [by eapply mok_mono|lia]]. eapply tok_mono; [exact Hll|]. by eapply tok_load.
Qed.

Lemma fence_ok s s' (t : qtview) :
  tok s t → scok s → (∀ k, lim s' k = lim s k) → w_sc s' = (fence_sc (w_sc s) t).1 → scok s' ∧ tok s' (fence_sc (w_sc s) t).2.
Proof.
  intros (H1 & H2 & H3) Hsc Hl E.
  assert (vok s (vjoin (t_acq t) (View (w_sc s) ∅))) as Hv by (apply vok_join; [done|]; intros k; apply Hsc).
  split; [intros k; rewrite E, Hl; exact (Hv k)|].
  split; [|split]; (eapply vok_mono; [|exact Hv]; intros k; rewrite Hl; lia).
Qed.

(** Reading the last message always works. *)
Lemma load_last {V} s (o : order) (k : loc) (h : list (qmsg V)) (t : qtview) :
  tok s t → lim s k = length h → ∃ m t', load o k (pred (length h)) h t = Some (m_val m, t') ∧ m ∈ h.
Proof.
  intros (H1 & _) Hl. pose proof (H1 k) as Hk. unfold load. rewrite bool_decide_eq_false_2 by lia.
  destruct (lookup_lt_is_Some_2 h (pred (length h))) as [m Hm]; [lia|]. rewrite Hm. cbn [mbind option_bind].
  eexists m, _. split; [done|]. by eapply elem_of_list_lookup_2.
Qed.
Lemma cas_last s (k : loc) (ex de : Z) (h : list (qmsg Z)) (t : qtview) :
  tok s t → lim s k = length h → is_Some (cas k ex de (pred (length h)) h t).
Proof.
  intros Ht Hl. pose proof Ht as (H1 & _). pose proof (H1 k) as Hk. unfold cas. rewrite bool_decide_eq_false_2 by lia.
  destruct (lookup_lt_is_Some_2 h (pred (length h))) as [m Hm]; [lia|]. rewrite Hm. cbn [mbind option_bind].
  case_bool_decide; [rewrite bool_decide_eq_true_2 by lia; by eexists|].
  destruct (load_last s Relaxed k h t Ht Hl) as (m' & t' & -> & _). by eexists.
Qed.

(** A state with the same messages. *)
Lemma binv_same s s' :
  binv s → w_top s' = w_top s → w_bot s' = w_bot s → w_arr s' = w_arr s → w_arrs s' = w_arrs s →
  tok s (w_to s') → Forall (λ pt, tok s pt.2) (w_th s') → scok s' →
  match w_opc s' with
  | WPushC _ _ a | WPopA _ a | WPopB _ a | WPopF _ a | WPopC _ _ a => (a < length (w_arrs s))%nat
  | _ => True
  end →
  Forall (λ pt, match pt.1 with VC _ a => (a < length (w_arrs s))%nat | _ => True end) (w_th s') → binv s'.
Proof.
  intros (H1 & H2 & H3 & H4 & H5 & H6 & H7 & H8 & H9 & H10) E1 E2 E3 E4 Hto Hth Hsc Ho Hpc.
  assert (∀ k, (lim s k <= lim s' k)%nat) as Hl by (intros []; cbn; rewrite ?E1, ?E2, ?E3, ?E4; lia).
  unfold binv. rewrite E1, E2, E3, E4. split; [by eapply tok_mono|].
  split; [eapply Forall_impl; [exact Hth|]; intros pt; by apply tok_mono|]. split; [done|].
  do 3 (split; [by eapply mok_mono|]). split; [intros a ar i Ha; eapply mok_mono; [exact Hl|]; by eapply H7|].
  done.
Qed.

Lemma lim_cell s (a : nat) (ar : warr A) (i : Z) : w_arrs s !! a = Some ar → lim s (LCell a i) = length (cell ar i).
Proof. intros Ha. cbn. by rewrite Ha. Qed.

(** A store to a cell of array [a]. *)
Lemma cell_push_len (a : nat) (i : Z) x (ar : warr A) (t : qtview) (j : Z) :
  cell (wa_push a i x ar t).1 j = if decide (j = slot ar i) then (store Relaxed (LCell a (slot ar i)) (Some x) (cell ar (slot ar i)) t).1 else cell ar j.
Proof.
  unfold cell, wa_push. cbn [fst wa_cells]. case_decide as E; [subst; by rewrite lookup_insert|].
  by rewrite lookup_insert_ne by done.
Qed.

Definition cells_ok s (ar : warr A) : Prop := ∀ i, mok s (cell ar i).

(** In [sf r] the array [a] is [r]. *)
Lemma wa_push_ok (sf : warr A → wsys A) (a : nat) (i : Z) x (r : warr A) (t : qtview) :
  (∀ r j, lim (sf r) (LCell a j) = length (cell r j)) →
  (∀ r r' k, (∀ j, k ≠ LCell a j) → lim (sf r) k = lim (sf r') k) →
  tok (sf r) t → cells_ok (sf r) r →
  let p := wa_push a i x r t in
  (∀ k, (lim (sf r) k <= lim (sf p.1) k)%nat) ∧ tok (sf p.1) p.2 ∧ cells_ok (sf p.1) p.1.
Proof.
  intros Ha Hne Ht Hc p.
  assert (∀ k, (lim (sf r) k <= lim (sf p.1) k)%nat) as Hl.
  { intros k. assert ((∃ j, k = LCell a j) ∨ ∀ j, k ≠ LCell a j) as [[j ->]|Hn].
    { destruct k as [| | |b j]; [by right..|]. destruct (decide (b = a)) as [->|Hn]; [by left; exists j|]. right. intros j' [= -> _]. done. }
    - rewrite !Ha. unfold p. rewrite cell_push_len. case_decide; subst; [cbn; rewrite app_length; lia|lia].
    - by rewrite (Hne r p.1). }
  split; [done|].
  destruct (store_ok (sf p.1) Relaxed (LCell a (slot r i)) (Some x) (cell r (slot r i)) t) as [S1 S2].
  - by eapply tok_mono.
  - by eapply mok_mono.
  - rewrite Ha. unfold p. rewrite cell_push_len, decide_True by done. cbn. rewrite app_length. cbn. lia.
  - split; [exact S2|]. intros j. unfold p at 2. rewrite cell_push_len. case_decide; [done|]. by eapply mok_mono.
Qed.

Lemma wcopy_ok (sf : warr A → wsys A) (a n : nat) (i : Z) (old r : warr A) (t : qtview) :
  (∀ r j, lim (sf r) (LCell a j) = length (cell r j)) →
  (∀ r r' k, (∀ j, k ≠ LCell a j) → lim (sf r) k = lim (sf r') k) →
  tok (sf r) t → cells_ok (sf r) r →
  let p := wcopy n i old a r t in
  (∀ k, (lim (sf r) k <= lim (sf p.1) k)%nat) ∧ tok (sf p.1) p.2 ∧ cells_ok (sf p.1) p.1.
Proof.
  intros Ha Hne. revert i r t. induction n as [|n IH]; intros i r t Ht Hc; cbn [wcopy].
  - cbn [fst snd]. split; [intros; lia|done].
  - destruct (cell_val old i) as [x|]; [|by apply IH]. cbv zeta.
    destruct (wa_push_ok sf a i x r t Ha Hne Ht Hc) as (L1 & T1 & C1).
    destruct (IH (i + 1) _ _ T1 C1) as (L2 & T2 & C2). split; [|done]. intros k. specialize (L1 k). specialize (L2 k). lia.
Qed.

Lemma lim_pos s k : binv s → (0 < lim s k)%nat.
Proof. intros ((H1 & _) & _). specialize (H1 k). lia. Qed.

Lemma use_same s (a : nat) (t : qtview) : w_top (use a t s) = w_top s ∧ w_bot (use a t s) = w_bot s ∧ w_arr (use a t s) = w_arr s ∧
  w_arrs (use a t s) = w_arrs s ∧ w_th (use a t s) = w_th s ∧ w_sc (use a t s) = w_sc s.
Proof. done. Qed.
Lemma tok_cell s (a : nat) (ar : warr A) (i : Z) (n : nat) (t : qtview) r t' :
  binv s → w_arrs s !! a = Some ar → tok s t → load Relaxed (LCell a i) n (cell ar i) t = Some (r, t') → tok s t'.
Proof.
  intros (_ & _ & _ & _ & _ & _ & H7 & _) Ha Ht Hl. eapply tok_load; [exact Hl|done|by eapply H7|by apply lim_cell].
Qed.

Ltac same Hi := eapply (binv_same _ _ Hi); [done|done|done|done| | | | |]; cbn.

(** A store to [_bottom]. *)
Lemma bot_binv s (v : Z) (o' : wopc A) (log' : list (event item)) :
  binv s → match o' with WPushC _ _ a | WPopA _ a | WPopB _ a | WPopF _ a | WPopC _ _ a => (a < length (w_arrs s))%nat | _ => True end →
  let p := store Relaxed LBot v (w_bot s) (w_to s) in
  binv (WSys (w_top s) p.1 (w_arr s) (w_arrs s) (w_sc s) o' p.2 (w_th s) log' (w_race s)).
Proof.
  intros (H1 & H2 & H3 & H4 & H5 & H6 & H7 & H8 & H9 & H10) Ho p. set (s' := WSys _ _ _ _ _ _ _ _ _ _).
  assert (∀ k, (lim s k <= lim s' k)%nat) as Hl by (intros []; cbn; rewrite ?app_length; lia).
  destruct (store_ok s' Relaxed LBot v (w_bot s) (w_to s)) as [S1 S2]; [by eapply tok_mono|by eapply mok_mono|cbn; rewrite app_length; cbn; lia|].
  split; [exact S2|]. split; [eapply Forall_impl; [exact H2|]; intros pt; by apply tok_mono|].
  split; [intros k; specialize (H3 k); specialize (Hl k); change (w_sc s') with (w_sc s); lia|].
  split; [by eapply mok_mono|]. split; [exact S1|]. split; [by eapply mok_mono|].
  split; [intros a ar j Ha; eapply mok_mono; [exact Hl|]; by eapply H7|]. done.
Qed.

Lemma cas_spec_len (k : loc) (ex de : Z) (n : nat) (h : list (qmsg Z)) (t : qtview) (ok : bool) (h' : list (qmsg Z)) (t' : qtview) :
  cas k ex de n h t = Some (ok, h', t') → (length h <= length h')%nat.
Proof.
  unfold cas. case_bool_decide; [done|]. destruct (h !! n) as [m|]; [|done]. cbn [mbind option_bind].
  case_bool_decide; [case_bool_decide; [|done]|destruct (load _ _ _ _ _); [|done]]; intros [= <- <- <-]; rewrite ?app_length; lia.
Qed.

(** The owner's compare-exchange on [_top]. *)
Lemma top_binv s (th : list (wtpc A * qtview)) (n : nat) (ex de : Z) (t : qtview) (ok : bool) (h' : list (qmsg Z)) (t' : qtview) (b : Z) (it : option item) (log' : list (event item)) :
  binv s → th = w_th s → t = w_to s → cas LTop ex de n (w_top s) t = Some (ok, h', t') →
  binv (WSys h' (w_bot s) (w_arr s) (w_arrs s) (w_sc s) (WPopE b it) t' th log' (w_race s)).
Proof.
  intros (H1 & H2 & H3 & H4 & H5 & H6 & H7 & H8 & H9 & H10) -> -> Hc. set (s' := WSys _ _ _ _ _ _ _ _ _ _).
  pose proof (cas_spec_len _ _ _ _ _ _ _ _ _ Hc) as Hle.
  assert (∀ k, (lim s k <= lim s' k)%nat) as Hl by (intros []; cbn; lia).
  destruct (cas_ok s s' _ _ _ _ _ _ _ _ _ Hc H1 H4 eq_refl Hl eq_refl) as (C1 & C2 & _).
  split; [exact C1|]. split; [eapply Forall_impl; [exact H2|]; intros pt; by apply tok_mono|].
  split; [intros k; specialize (H3 k); specialize (Hl k); change (w_sc s') with (w_sc s); lia|].
  split; [exact C2|]. do 2 (split; [by eapply mok_mono|]).
  split; [intros a ar j Ha; eapply mok_mono; [exact Hl|]; by eapply H7|]. done.
Qed.

Lemma owner_binv n s s' : binv s → wowner n s = Some s' → binv s'.
Proof.
  intros Hi. pose proof Hi as (H1 & H2 & H3 & H4 & H5 & H6 & H7 & H8 & H9 & H10).
  unfold WeakQueue.wowner. destruct (w_opc s) as [|x b|x b top|x b a|x b|x b|b|b a|b a|b a|b top a|b top it|b it] eqn:Ho; cbn [mbind option_bind].
  - done.
  - destruct (load _ _ _ _ _) as [[r t']|] eqn:Hl; [|done]. intros [= <-]. same Hi; [by eapply tok_load|done..].
  - destruct (load _ _ _ _ _) as [[r t']|] eqn:Hl; [|done]. cbn [mbind option_bind fst snd].
    assert (tok s t') as Ht' by by eapply tok_load.
    assert (r < length (w_arrs s))%nat as Hr.
    { apply load_spec in Hl as (m & Hm & -> & _). exact (proj1 (Forall_lookup _ _) H8 n m Hm). }
    destruct (w_arrs s !! r) as [ar|] eqn:Har; [|done]. cbn [mbind option_bind].
    destruct (bool_decide _); intros Heq; apply (inj Some) in Heq; subst s'; [|by same Hi].
    change (w_arrs (use r t' s)) with (w_arrs s). change (w_arr (use r t' s)) with (w_arr s).
    set (a := length (w_arrs s)). set (c := wcopy _ _ _ _ _ _). set (p := store _ _ _ _ _).
    set (sf := λ r : warr A, set_warrs s (w_arrs s ++ [r])).
    assert (∀ r, (w_arrs s ++ [r]) !! a = Some r) as Hla by (intros; unfold a; by rewrite lookup_app_r, Nat.sub_diag by lia).
    assert (∀ r b, b ≠ a → (w_arrs s ++ [r]) !! b = w_arrs s !! b) as Hlb.
    { intros r0 b0 Hb0. destruct (decide (b0 < a)%nat) as [Hlt|Hge]; [by rewrite lookup_app_l|].
      rewrite !lookup_ge_None_2; [done|unfold a in *; lia|rewrite app_length; cbn; unfold a in *; lia]. }
    assert (∀ r k, (lim s k <= lim (sf r) k)%nat ∨ ∃ j, k = LCell a j) as Hsf.
    { intros r0 [| | |b0 j]; cbn; [left; lia..|]. destruct (decide (b0 = a)) as [->|Hn]; [right; eauto|left; by rewrite Hlb]. }
    set (r0 := WArr (2 * wa_cap ar) ∅ : warr A).
    assert (∀ k, (lim s k <= lim (sf r0) k)%nat) as Hsf0.
    { intros k. destruct (Hsf r0 k) as [?|[j ->]]; [done|]. cbn. rewrite Hla. cbn. unfold a. rewrite lookup_ge_None_2 by lia. done. }
    assert (tok (sf r0) (learn (vev (EvArray a)) t')) as Hto.
    { apply tok_learn; [by eapply tok_mono|]. eapply vok_ev. eapply vok_mono; [exact Hsf0|]. apply H1. }
    destruct (wcopy_ok sf a (Z.to_nat (b - top)) top ar r0 (learn (vev (EvArray a)) t')) as (L1 & T1 & C1).
    { intros r1 j. cbn. by rewrite Hla. }
    { intros r1 r2 [| | |b0 j] Hk; try done. cbn. rewrite !Hlb; [done|intros ->; by apply (Hk j)|intros ->; by apply (Hk j)]. }
    { exact Hto. }
    { intros i. apply Forall_singleton. cbn. eapply vok_empty. apply Hto. }
    change (wcopy _ _ _ _ r0 _) with c in L1, T1, C1.
    set (s1 := set_owner _ _ _).
    assert (∀ k, (lim (sf c.1) k <= lim s1 k)%nat) as L2.
    { intros [| | |b0 j]; cbn; try lia. rewrite app_length. lia. }
    assert (∀ k, (lim s k <= lim s1 k)%nat) as L3 by (intros k; specialize (L1 k); specialize (L2 k); specialize (Hsf0 k); lia).
    destruct (store_ok s1 array_store LArr a (w_arr s) c.2) as [S1 S2].
    { by eapply (tok_mono (sf c.1)). } { by eapply (mok_mono s). } { cbn. rewrite app_length. cbn. lia. }
    fold p in S1, S2. split; [exact S2|]. split; [eapply Forall_impl; [exact H2|]; intros pt; by apply tok_mono|].
    split; [intros k; specialize (H3 k); specialize (L3 k); cbn [s1 w_sc set_owner set_warr set_warrs use]; lia|].
    do 2 (split; [by eapply mok_mono|]). split; [exact S1|]. split; [|split; [|split]].
    + intros b0 r1 i Hb0. change (w_arrs s1) with (w_arrs s ++ [c.1]) in Hb0.
      destruct (decide (b0 = a)) as [->|Hn].
      * rewrite Hla in Hb0. injection Hb0 as <-. eapply mok_mono; [exact L2|]. apply C1.
      * rewrite Hlb in Hb0 by done. eapply mok_mono; [exact L3|]. by eapply H7.
    + change (w_arrs s1) with (w_arrs s ++ [c.1]). rewrite app_length. cbn [length].
      change (w_arr s1) with (w_arr s ++ [Msg a (vjoin (if releases array_store then t_cur c.2 else t_rel c.2) (vat LArr (length (w_arr s))))]).
      apply Forall_app. split; [eapply Forall_impl; [exact H8|]; cbn; intros; lia|]. constructor; [cbn; unfold a; lia|done].
    + change (w_arrs s1) with (w_arrs s ++ [c.1]). cbn. rewrite app_length. cbn. unfold a. lia.
    + change (w_arrs s1) with (w_arrs s ++ [c.1]). rewrite app_length. eapply Forall_impl; [exact H10|].
      intros [[] ?]; cbn; lia.
  - destruct (w_arrs s !! a) as [ar|] eqn:Har; [|done]. cbn [mbind option_bind].
    intros Heq. apply (inj Some) in Heq. subst s'. set (c := wa_push a b x ar (w_to s)).
    set (sf := λ r : warr A, set_warrs s (<[a := r]> (w_arrs s))).
    assert (∀ r, <[a := r]> (w_arrs s) !! a = Some r) as Hla by (intros; by apply list_lookup_insert).
    assert (∀ r b, b ≠ a → <[a := r]> (w_arrs s) !! b = w_arrs s !! b) as Hlb by (intros; by apply list_lookup_insert_ne).
    assert (sf ar = s) as Hsf by (unfold sf; rewrite list_insert_id by done; by destruct s).
    destruct (wa_push_ok sf a b x ar (w_to s)) as (L1 & T1 & C1).
    { intros r1 j. cbn. by rewrite Hla. }
    { intros r1 r2 [| | |b0 j] Hk; try done. cbn. rewrite !Hlb; [done|intros ->; by apply (Hk j)|intros ->; by apply (Hk j)]. }
    { by rewrite Hsf. } { rewrite Hsf. intros i. by eapply H7. }
    rewrite Hsf in L1. fold c in L1, T1, C1.
    set (s1 := set_owner _ _ _).
    assert (∀ k, (lim (sf c.1) k <= lim s1 k)%nat) as L2 by (intros [| | |b0 j]; cbn; lia).
    assert (∀ k, (lim s k <= lim s1 k)%nat) as L3 by (intros k; specialize (L1 k); specialize (L2 k); lia).
    split; [by eapply (tok_mono (sf c.1))|]. split; [eapply Forall_impl; [exact H2|]; intros pt; by apply tok_mono|].
    split; [intros k; specialize (H3 k); specialize (L3 k); cbn [s1 w_sc set_owner set_warrs use]; lia|].
    do 3 (split; [by eapply mok_mono|]). split; [|split; [|split; [done|]]].
    + intros b0 r1 i Hb0. change (w_arrs s1) with (<[a := c.1]> (w_arrs s)) in Hb0.
      destruct (decide (b0 = a)) as [->|Hn].
      * rewrite Hla in Hb0. injection Hb0 as <-. eapply mok_mono; [exact L2|]. apply C1.
      * rewrite Hlb in Hb0 by done. eapply mok_mono; [exact L3|]. by eapply H7.
    + change (w_arrs s1) with (<[a := c.1]> (w_arrs s)). rewrite insert_length. exact H8.
    + change (w_arrs s1) with (<[a := c.1]> (w_arrs s)). rewrite insert_length. exact H10.
  - intros [= <-]. same Hi; [|done..]. destruct H1 as (K1 & K2 & K3). done.
  - intros Heq. apply (inj Some) in Heq. subst s'. by apply (bot_binv s (b + 1) WIdle (w_log s ++ [EPush x])).
  - destruct (load _ _ _ _ _) as [[r t']|] eqn:Hl; [|done]. cbn [mbind option_bind fst snd]. intros [= <-].
    assert (r < length (w_arrs s))%nat as Hr.
    { apply load_spec in Hl as (m & Hm & -> & _). exact (proj1 (Forall_lookup _ _) H8 n m Hm). }
    same Hi; [by eapply tok_load|done..].
  - intros Heq. apply (inj Some) in Heq. subst s'. by apply (bot_binv s b (WPopB b a) (w_log s)).
  - cbv zeta. intros Heq. apply (inj Some) in Heq. subst s'.
    destruct (fence_ok s (set_sc s (fence_sc (w_sc s) (w_to s)).1) (w_to s) H1 H3) as [F1 F2]; [by intros []|done|].
    eapply (binv_same _ _ Hi); [done|done|done|done|exact F2|exact H2|exact F1|exact H9|exact H10].
  - destruct (load _ _ _ _ _) as [[r t']|] eqn:Hl; [|done]. intros [= <-]. same Hi; [by eapply tok_load|done..].
  - destruct (bool_decide _).
    + destruct (w_arrs s !! a) as [ar|] eqn:Har; [|done]. cbn [mbind option_bind].
      destruct (load _ _ _ _ _) as [[r t']|] eqn:Hl; [|done]. intros [= <-]. same Hi; [by eapply tok_cell|done..].
    + intros [= <-]. by same Hi.
  - destruct (bool_decide _).
    + destruct (cas _ _ _ _ _ _) as [[[ok h'] t']|] eqn:Hc; [|done]. cbn [mbind option_bind]. intros Heq. apply (inj Some) in Heq. subst s'.
      by apply (top_binv s (w_th s) n top (top + 1) (w_to s) ok h' t' b (if ok then it else None) (w_log s)).
    + intros [= <-]. by same Hi.
  - intros Heq. apply (inj Some) in Heq. subst s'. by apply (bot_binv s (b + 1) WIdle (w_log s ++ [EPop it])).
Qed.

Lemma thief_binv i n s s' : binv s → wthief i n s = Some s' → binv s'.
Proof.
  intros Hi. pose proof Hi as (H1 & H2 & H3 & H4 & H5 & H6 & H7 & H8 & H9 & H10).
  unfold WeakQueue.wthief. destruct (w_th s !! i) as [[p t]|] eqn:Hth; [|done]. cbn [mbind option_bind fst snd].
  assert (tok s t) as Ht by exact (proj1 (Forall_lookup _ _) H2 i _ Hth).
  destruct p as [|top|top|top|top a|top it].
  - destruct (load _ _ _ _ _) as [[r t']|] eqn:Hl; [|done]. intros [= <-].
    same Hi; [done|apply Forall_insert; [done|by eapply tok_load]|done|done|by apply Forall_insert].
  - cbv zeta. intros Heq. apply (inj Some) in Heq. subst s'.
    destruct (fence_ok s (set_sc s (fence_sc (w_sc s) t).1) t Ht H3) as [F1 F2]; [by intros []|done|].
    eapply (binv_same _ _ Hi); [done|done|done|done|exact H1|apply Forall_insert; [exact H2|exact F2]|exact F1|exact H9|by apply Forall_insert].
  - destruct (load _ _ _ _ _) as [[r t']|] eqn:Hl; [|done]. cbn [mbind option_bind fst snd].
    assert (tok s t') as Ht' by by eapply tok_load.
    destruct (bool_decide _); intros [= <-]; same Hi; try done; by apply Forall_insert.
  - destruct (load _ _ _ _ _) as [[r t']|] eqn:Hl; [|done]. intros [= <-].
    assert (r < length (w_arrs s))%nat as Hr.
    { apply load_spec in Hl as (m & Hm & -> & _). exact (proj1 (Forall_lookup _ _) H8 n m Hm). }
    same Hi; [done|apply Forall_insert; [done|by eapply tok_load]|done|done|by apply Forall_insert].
  - destruct (w_arrs s !! a) as [ar|] eqn:Har; [|done]. cbn [mbind option_bind].
    destruct (load _ _ _ _ _) as [[r t']|] eqn:Hl; [|done]. intros [= <-].
    same Hi; [done|apply Forall_insert; [done|by eapply tok_cell]|done|done|by apply Forall_insert].
  - destruct (cas _ _ _ _ _ _) as [[[ok h'] t']|] eqn:Hc; [|done]. cbn [mbind option_bind]. intros Heq. apply (inj Some) in Heq. subst s'.
    destruct (cas_ok s (set_wtop s h') _ _ _ _ _ _ _ _ _ Hc Ht H4 eq_refl) as (C1 & C2 & C3).
    { apply cas_spec_len in Hc. intros []; cbn; lia. } { done. }
    assert (∀ k, (lim s k <= lim (set_wtop s h') k)%nat) as Hl by (intros []; cbn; lia).
    split; [by eapply tok_mono|]. split.
    { apply Forall_insert; [|exact C1]. eapply Forall_impl; [exact H2|]. intros pt. by apply tok_mono. }
    split; [intros k; specialize (H3 k); specialize (Hl k); change (w_sc _) with (w_sc s); cbn [lim] in *; destruct k; cbn in *; lia|].
    split; [exact C2|]. do 2 (split; [by eapply mok_mono|]).
    split; [intros a ar j Ha; eapply mok_mono; [exact Hl|]; by eapply H7|]. split; [exact H8|]. split; [exact H9|].
    by apply Forall_insert.
Qed.

Lemma learn_binv s j v : binv s → vok s v → binv (learn_of s j v).
Proof.
  intros Hi Hv. pose proof Hi as (H1 & H2 & H3 & H4 & H5 & H6 & H7 & H8 & H9 & H10). destruct j as [j|]; cbn [learn_of].
  - eapply (binv_same _ _ Hi); [done|done|done|done|done| |done|done|]; cbn [w_th].
    + apply Forall_alter; [done|]. intros pt _ Hp. by apply tok_learn.
    + apply Forall_alter; [done|]. by intros pt _ Hp.
  - eapply (binv_same _ _ Hi); [done|done|done|done|by apply tok_learn|done|done|done|done].
Qed.

Lemma view_ok s j v : binv s → view_of s j = Some v → vok s v.
Proof.
  intros ((H1 & _) & H2 & _). destruct j as [j|]; cbn; [|by intros [= <-]].
  destruct (w_th s !! j) as [pt|] eqn:Hj; [|done]. intros [= <-]. by destruct (proj1 (Forall_lookup _ _) H2 j _ Hj).
Qed.

Theorem wreach_binv c k s : wreach array_store array_load c k s → binv s.
Proof.
  induction 1 as [|s a s' Hr Hi Hs].
  - assert (∀ j, (0 < lim (winit c k) j)%nat) as Hp.
    { intros [| | |a i]; cbn; [lia..|]. destruct (_ !! a) as [ar|] eqn:E; [|lia]. apply list_lookup_singleton_Some in E as [_ <-].
      unfold cell. cbn [wa_cells]. rewrite lookup_empty. cbn. lia. }
    assert (vok (winit c k) (vev (EvArray 0))) as Hv by (intros j; rewrite ts_vev; apply Hp).
    assert (vok (winit c k) vempty) as Hv' by by eapply vok_empty.
    split; [done|]. split; [by apply Forall_replicate|]. split.
    { intros j. cbn [winit w_sc]. rewrite lookup_empty. apply Hp. }
    do 3 (split; [by apply Forall_singleton|]). split; [|split; [apply Forall_singleton; cbn; lia|split; [done|by apply Forall_replicate]]].
    intros a ar i Ha. cbn in Ha. apply list_lookup_singleton_Some in Ha as [_ <-]. unfold cell. cbn [wa_cells]. rewrite lookup_empty. by apply Forall_singleton.
  - pose proof Hi as (H1 & H2 & H3 & H4 & H5 & H6 & H7 & H8 & H9 & H10).
    destruct a as [x n|n|n|i n|j e|j l]; cbn [WeakQueue.wstep] in Hs.
    + destruct (w_opc s) eqn:Ho; try done. destruct (load _ _ _ _ _) as [[r t']|] eqn:Hl; [|done]. injection Hs as <-.
      same Hi; [by eapply tok_load|done..].
    + destruct (w_opc s) eqn:Ho; try done. destruct (load _ _ _ _ _) as [[r t']|] eqn:Hl; [|done]. injection Hs as <-.
      same Hi; [by eapply tok_load|done..].
    + by eapply owner_binv.
    + by eapply thief_binv.
    + injection Hs as <-. apply learn_binv; [done|]. eapply vok_ev. apply H1.
    + destruct (view_of s l) as [v|] eqn:Hv; [|done]. injection Hs as <-. apply learn_binv; [done|]. by eapply view_ok.
Qed.

(** Every started operation can take its next step, and idle threads can start one. *)
Theorem never_stuck c k s :
  wreach array_store array_load c k s →
  (w_opc s = WIdle → (∀ x : A, ∃ n, is_Some (wstep (APush x n) s)) ∧ ∃ n, is_Some (wstep (APop n) s)) ∧
  (w_opc s ≠ WIdle → ∃ n, is_Some (wowner n s)) ∧
  ∀ i, (i < length (w_th s))%nat → ∃ n, is_Some (wthief i n s).
Proof.
  intros Hr. pose proof (wreach_binv c k s Hr) as (H1 & H2 & H3 & H4 & H5 & H6 & H7 & H8 & H9 & H10).
  split; [|split].
  - intros Ho. split.
    + intros x. exists (pred (length (w_bot s))). cbn. rewrite Ho.
      destruct (load_last s Relaxed LBot (w_bot s) (w_to s) H1 eq_refl) as (m & t' & -> & _). by eexists.
    + exists (pred (length (w_bot s))). cbn. rewrite Ho.
      destruct (load_last s Relaxed LBot (w_bot s) (w_to s) H1 eq_refl) as (m & t' & -> & _). by eexists.
  - intros Hne. unfold WeakQueue.wowner. destruct (w_opc s) as [|x b|x b top|x b a|x b|x b|b|b a|b a|b a|b top a|b top it|b it] eqn:Ho; [done|..].
    + exists (pred (length (w_top s))). destruct (load_last s Acquire LTop (w_top s) (w_to s) H1 eq_refl) as (m & t' & -> & _). by eexists.
    + exists (pred (length (w_arr s))). destruct (load_last s Relaxed LArr (w_arr s) (w_to s) H1 eq_refl) as (m & t' & -> & Hm).
      cbn [mbind option_bind fst snd]. destruct (lookup_lt_is_Some_2 (w_arrs s) (m_val m)) as [ar ->].
      { exact (proj1 (Forall_forall _ _) H8 m Hm). }
      cbn [mbind option_bind]. destruct (bool_decide _); by eexists.
    + exists 0%nat. destruct (lookup_lt_is_Some_2 _ _ H9) as [ar ->]. by eexists.
    + exists 0%nat. by eexists.
    + exists 0%nat. by eexists.
    + exists (pred (length (w_arr s))). destruct (load_last s Relaxed LArr (w_arr s) (w_to s) H1 eq_refl) as (m & t' & -> & Hm). by eexists.
    + exists 0%nat. by eexists.
    + exists 0%nat. by eexists.
    + exists (pred (length (w_top s))). destruct (load_last s Relaxed LTop (w_top s) (w_to s) H1 eq_refl) as (m & t' & -> & _). by eexists.
    + destruct (lookup_lt_is_Some_2 _ _ H9) as [ar Har]. rewrite Har. cbn [mbind option_bind].
      exists (pred (length (cell ar (slot ar b)))).
      destruct (load_last s Relaxed (LCell a (slot ar b)) (cell ar (slot ar b)) (w_to s) H1 (lim_cell _ _ _ _ Har)) as (m & t' & -> & _).
      destruct (bool_decide _); by eexists.
    + exists (pred (length (w_top s))). destruct (bool_decide _); [|by eexists].
      destruct (cas_last s LTop top (top + 1) (w_top s) (w_to s) H1 eq_refl) as [[[ok h] t'] ->]. by eexists.
    + exists 0%nat. by eexists.
  - intros i Hi. destruct (lookup_lt_is_Some_2 _ _ Hi) as [[p t] Hth]. unfold WeakQueue.wthief. rewrite Hth. cbn [mbind option_bind fst snd].
    assert (tok s t) as Ht by exact (proj1 (Forall_lookup _ _) H2 i _ Hth).
    pose proof (proj1 (Forall_lookup _ _) H10 i _ Hth) as Hp. cbn [fst] in Hp.
    destruct p as [|top|top|top|top a|top it].
    + exists (pred (length (w_top s))). destruct (load_last s Acquire LTop (w_top s) t Ht eq_refl) as (m & t' & -> & _). by eexists.
    + exists 0%nat. by eexists.
    + exists (pred (length (w_bot s))). destruct (load_last s Acquire LBot (w_bot s) t Ht eq_refl) as (m & t' & -> & _).
      cbn [mbind option_bind]. destruct (bool_decide _); by eexists.
    + exists (pred (length (w_arr s))). destruct (load_last s array_load LArr (w_arr s) t Ht eq_refl) as (m & t' & -> & _). by eexists.
    + destruct (lookup_lt_is_Some_2 _ _ Hp) as [ar Har]. rewrite Har. cbn [mbind option_bind].
      exists (pred (length (cell ar (slot ar top)))).
      destruct (load_last s Relaxed (LCell a (slot ar top)) (cell ar (slot ar top)) t Ht (lim_cell _ _ _ _ Har)) as (m & t' & -> & _). by eexists.
    + exists (pred (length (w_top s))). destruct (cas_last s LTop top (top + 1) (w_top s) t Ht eq_refl) as [[[ok h] t'] ->]. by eexists.
Qed.
End progress.
