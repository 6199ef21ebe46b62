(** Invariant of the work-stealing queue with its memory orders. *)
From Verif Require Import Base WeakMem WSQueue WSQueueProofs WeakQueue.
Ltac Zify.zify_post_hook ::= Z.div_mod_to_equations.
Local Open Scope Z_scope.

(** * Views *)
Section views.
Context {L : Type} `{Countable L} {E : Type} `{Countable E}.
Implicit Types v w : view L E.

Lemma ts_join v w l : ts (vjoin v w) l = (ts v l `max` ts w l)%nat.
Proof.
  unfold ts, vjoin. cbn. rewrite lookup_union_with. destruct (v_ts v !! l), (v_ts w !! l); cbn; lia.
Qed.
Lemma ts_at (l l' : L) n : ts (E:=E) (vat l n) l' = if decide (l' = l) then n else 0%nat.
Proof.
  unfold ts, vat. cbn. case_decide as Hd; [subst; by rewrite lookup_singleton|].
  by rewrite lookup_singleton_ne.
Qed.
Lemma ts_at_same (l : L) n : ts (E:=E) (vat l n) l = n.
Proof. rewrite ts_at. by rewrite decide_True. Qed.
Lemma ts_vev (e : E) (l : L) : ts (vev e) l = 0%nat.
Proof. done. Qed.
Lemma ts_empty (l : L) : ts (E:=E) vempty l = 0%nat.
Proof. done. Qed.
Lemma ev_join v w : v_ev (vjoin v w) = v_ev v ∪ v_ev w.
Proof. done. Qed.

Definition vle v w : Prop := (∀ l, (ts v l <= ts w l)%nat) ∧ v_ev v ⊆ v_ev w.
Lemma vle_refl v : vle v v.
Proof. by split; [lia|]. Qed.
Lemma vle_trans v w u : vle v w → vle w u → vle v u.
Proof. intros [H1 H2] [H3 H4]. split; [|set_solver]. intros l. specialize (H1 l). specialize (H3 l). lia. Qed.
Lemma vle_join_l v w : vle v (vjoin v w).
Proof. split; [intros l; rewrite ts_join; lia|cbn; set_solver]. Qed.
Lemma vle_join_r v w : vle w (vjoin v w).
Proof. split; [intros l; rewrite ts_join; lia|cbn; set_solver]. Qed.
Lemma vjoin_le v w u : vle v u → vle w u → vle (vjoin v w) u.
Proof.
  intros [H1 H2] [H3 H4]. split; [|cbn; set_solver]. intros l. rewrite ts_join.
  specialize (H1 l). specialize (H3 l). lia.
Qed.
Lemma vjoin_mono v v' w w' : vle v v' → vle w w' → vle (vjoin v w) (vjoin v' w').
Proof.
  intros Hv Hw. apply vjoin_le; [eapply vle_trans; [exact Hv|apply vle_join_l]|].
  eapply vle_trans; [exact Hw|apply vle_join_r].
Qed.
Lemma vle_empty v : vle vempty v.
Proof. split; [intros l; rewrite ts_empty; lia|cbn; set_solver]. Qed.

(** What a load gives. *)
Lemma load_spec {V} o l n (h : list (msg L E V)) t x t' :
  load o l n h t = Some (x, t') →
  ∃ m, h !! n = Some m ∧ x = m_val m ∧ (ts (t_cur t) l <= n)%nat ∧ t_rel t' = t_rel t ∧
    vle (t_cur t) (t_cur t') ∧ (vle (t_cur t) (t_acq t) → vle (t_cur t') (t_acq t')) ∧
    vle (vat l n) (t_cur t') ∧ (acquires o = true → vle (m_view m) (t_cur t')) ∧ vle (t_acq t) (t_acq t').
Proof.
  unfold load. case_bool_decide as Hn; [done|]. destruct (h !! n) as [m|]; [|done]. cbn. intros [= <- <-].
  exists m. cbn. split; [done|]. split; [done|]. split; [lia|]. split; [done|]. split; [|split; [|split; [|split]]].
  - eapply vle_trans; apply vle_join_l.
  - intros Hca. apply vjoin_mono; [by apply vjoin_mono; [|apply vle_refl]|].
    destruct (acquires o); [apply vle_refl|apply vle_empty].
  - eapply vle_trans; [apply vle_join_r|apply vle_join_l].
  - intros ->. apply vle_join_r.
  - eapply vle_trans; apply vle_join_l.
Qed.
End views.

(** * Projection to the queue of WSQueue.v *)
Section proofs.
Context {A : Type}.
Variables array_store array_load : order.
Notation item := (A * gset ev)%type.
Notation wstep := (wstep (A:=A) array_store array_load).
Notation wowner := (wowner (A:=A) array_store).
Notation wthief := (wthief (A:=A) array_load).
Implicit Types (s : wsys A) (l : list item) (x : item).

Definition p_arr (r : warr A) : arr item := Arr (wa_cap r) (omap (λ h, m ← last h; m_val m) (wa_cells r)).

Lemma arr_pop_proj r i : arr_pop (p_arr r) i = cell_val r i.
Proof.
  unfold arr_pop, cell_val, cell, slot. cbn. rewrite lookup_omap.
  by destruct (wa_cells r !! _).
Qed.

Definition p_top s : Z := Z.of_nat (pred (length (w_top s))).
Definition p_bot s : Z := default 0 (m_val <$> last (w_bot s)).
Definition p_cur s : nat := default 0%nat (m_val <$> last (w_arr s)).
Definition p_q s : wsq item := Wsq (p_top s) (p_bot s) (p_arr <$> w_arrs s) (p_cur s).
Definition p_o (c : nat) (o : wopc A) : opc item :=
  match o with
  | WIdle => OIdle
  | WPushA x b => OPushA x b
  | WPushB x b t => OPushB x b t
  | WPushC x b a => OPushC x b a
  | WPushD x b | WPushE x b => OPushD x b
  | WPopS b => OPopA b c
  | WPopA b a => OPopA b a
  | WPopB b a | WPopF b a => OPopB b a
  | WPopC b t a => OPopC b t a
  | WPopD b t it => OPopD b t it
  | WPopE b it => OPopE b it
  end.
Definition p_t (p : wtpc A) : tpc item :=
  match p with
  | VIdle => TIdle
  | VA t | VF t => TA t
  | VB t => TB t
  | VC t a => TC t a
  | VD t it => TD t it
  end.
Definition p_sys s : system item :=
  Sys (p_q s) (p_o (p_cur s) (w_opc s)) ((λ pt, p_t pt.1) <$> w_th s) (w_log s).
Definition p_end s : Z := logical_end (p_q s) (p_o (p_cur s) (w_opc s)).

(** * Invariant *)

(** A thread that knows [w] reads [x] at index [i] of array [a]. *)
Definition fnd s (w : qview) (a : nat) (i : Z) (x : item) : Prop :=
  ∃ ar, w_arrs s !! a = Some ar ∧ cell_val ar i = Some x ∧
    (pred (length (cell ar (slot ar i))) <= ts w (LCell a (slot ar i)))%nat.

(** A thread that knows [w] reads [x] at index [i] of any array it can still get, and knows what happened
    before its push. *)
Definition cov s (w : qview) (i : Z) (x : item) : Prop :=
  x.2 ⊆ v_ev w ∧
  ∀ (j : nat) m, w_arr s !! j = Some m → (ts w LArr <= j)%nat → fnd s (vjoin w (m_view m)) (m_val m) i x.

Definition sc_top s : Z := Z.of_nat (default 0%nat (w_sc s !! LTop)).
Definition sc_bot s : nat := default 0%nat (w_sc s !! LBot).
Definition o_top s : Z := Z.of_nat (ts (t_cur (w_to s)) LTop).

Definition thief_ok s l (pt : wtpc A * qtview) : Prop :=
  vle (t_cur pt.2) (t_acq pt.2) ∧ EvArray 0 ∈ v_ev (t_cur pt.2) ∧
  match pt.1 with
  | VIdle => True
  | VA t => t <= p_top s ∧ t <= Z.of_nat (ts (t_acq pt.2) LTop)
  | VF t => t <= p_top s ∧ t <= sc_top s ∧
      (t = p_top s → ∀ (k : nat) m, w_bot s !! k = Some m → (ts (t_cur pt.2) LBot <= k)%nat → t < m_val m →
         ∃ x, head l = Some x ∧ cov s (m_view m) t x)
  | VB t => t <= p_top s ∧ t <= sc_top s ∧ (t = p_top s → ∃ x, head l = Some x ∧ cov s (t_cur pt.2) t x)
  | VC t a => t <= p_top s ∧ t <= sc_top s ∧ EvArray a ∈ v_ev (t_cur pt.2) ∧ (a < length (w_arrs s))%nat ∧
      (t = p_top s → ∃ x, head l = Some x ∧ x.2 ⊆ v_ev (t_cur pt.2) ∧ fnd s (t_cur pt.2) a t x)
  | VD t it => t <= p_top s ∧ t <= sc_top s ∧
      (t = p_top s → ∃ x, head l = Some x ∧ x.2 ⊆ v_ev (t_cur pt.2) ∧ it = Some x)
  end.

(** Between the owner's fence in pop (line 104) and its load of [_top]: a thief past its own fence either
    sees that the last slot is reserved or is known to the owner. *)
Definition fenced s (b : Z) (pt : wtpc A * qtview) : Prop :=
  match pt.1 with
  | VIdle | VA _ => True
  | VF t => (pred (length (w_bot s)) <= ts (t_cur pt.2) LBot)%nat ∨ t <= o_top s
  | VB t | VC t _ | VD t _ => t < b ∨ t <= o_top s
  end.

Definition cur_cap s : Z := default 0 (wa_cap <$> w_arrs s !! p_cur s).

Definition owner_ok s : Prop :=
  match w_opc s with
  | WIdle | WPopS _ | WPopA _ _ | WPopB _ _ | WPopE _ _ => True
  | WPushA x _ => x.2 ⊆ v_ev (t_cur (w_to s))
  | WPushB x b t => x.2 ⊆ v_ev (t_cur (w_to s)) ∧ t <= o_top s
  | WPushC x b _ | WPushD x b => x.2 ⊆ v_ev (t_cur (w_to s)) ∧ b - o_top s <= cur_cap s - 1
  | WPushE x b => cov s (t_rel (w_to s)) b x ∧ b - o_top s <= cur_cap s - 1
  | WPopF b a => (pred (length (w_bot s)) <= sc_bot s)%nat ∧ Forall (fenced s b) (w_th s) ∧
      (p_top s = b + 1 → b <= o_top s)
  | WPopC b t a => t <= o_top s
  | WPopD b t it => t <= o_top s
  end.

(** The owner has seen everything it wrote. *)
Definition knows_all s (v : qview) : Prop :=
  (pred (length (w_bot s)) <= ts v LBot)%nat ∧ (pred (length (w_arr s)) <= ts v LArr)%nat ∧
  ∀ a ar, w_arrs s !! a = Some ar → EvArray a ∈ v_ev v ∧
    ∀ i, (pred (length (cell ar i)) <= ts v (LCell a i))%nat.

Definition basic_ok s : Prop :=
  w_top s ≠ [] ∧ w_bot s ≠ [] ∧ w_arr s ≠ [] ∧
  (∀ (n : nat) m, w_top s !! n = Some m → m_val m = Z.of_nat n) ∧
  (∀ (j : nat) m, w_arr s !! j = Some m → (m_val m < length (w_arrs s))%nat ∧
     (m_val m = 0%nat ∨ EvArray (m_val m) ∈ v_ev (m_view m))) ∧
  w_arr s !! 0%nat = Some (Msg 0%nat vempty) ∧
  vle (t_cur (w_to s)) (t_acq (w_to s)) ∧ vle (t_rel (w_to s)) (t_cur (w_to s)) ∧
  knows_all s (t_cur (w_to s)) ∧
  p_top s <= 1 + Z.max (sc_top s) (o_top s) ∧
  p_end s - o_top s <= cur_cap s ∧
  w_race s = false.

(** The contents as seen from the owner's last release fence, and from the messages of [_bottom] that can be
    read after a sequentially consistent fence. *)
Definition seen s l : Prop :=
  (∀ k x, l !! k = Some x → cov s (t_rel (w_to s)) (p_top s + Z.of_nat k) x) ∧
  (∀ (n : nat) m, w_bot s !! n = Some m → (sc_bot s <= n)%nat → m_val m <= p_end s ∧
     ∀ k x, l !! k = Some x → p_top s + Z.of_nat k < m_val m → cov s (m_view m) (p_top s + Z.of_nat k) x).

Definition winv s (h : list (dop item)) l (pend : list (event item)) : Prop :=
  s_inv (p_sys s) h l pend ∧ basic_ok s ∧ owner_ok s ∧ Forall (thief_ok s l) (w_th s) ∧ seen s l.

(** The store to [_array] releases and the load acquires, or push never grew the array. *)
Definition sync_array s : Prop :=
  (releases array_store = true ∧ acquires array_load = true) ∨ length (w_arr s) = 1%nat.

Lemma winv_init c k : pow2Z c → winv (winit c k) [] [] [].
Proof.
  intros Hc. split; [|split; [|split; [done|split]]].
  - pose proof (s_inv_init (A:=item) c k Hc) as Hi. unfold p_sys, p_q. cbn.
    replace ((λ pt, p_t pt.1) <$> replicate k (VIdle, tview0)) with (replicate k (@TIdle item)); [|by rewrite fmap_replicate].
    unfold p_arr. cbn. rewrite omap_empty. done.
  - pose proof (pow2Z_pos _ Hc). unfold basic_ok. cbn -[v_ev knows_all]. do 3 (split; [done|]).
    split; [|split; [|split; [|split; [|split; [|split; [|split; [|split]]]]]]].
    + intros [|n] m; [by intros [= <-]|done].
    + intros [|j] m; [|done]. intros [= <-]. cbn. auto.
    + done.
    + apply vle_refl.
    + apply vle_refl.
    + unfold knows_all. cbn. split; [lia|]. split; [lia|]. intros [|a] ar; [|done]. intros [= <-]. cbn.
      split; [set_solver|]. intros i. unfold cell. cbn. rewrite lookup_empty. cbn. lia.
    + unfold p_top, sc_top, o_top. cbn. lia.
    + unfold cur_cap, p_cur, p_end, o_top, p_bot. cbn. lia.
    + done.
  - cbn. apply Forall_replicate. unfold thief_ok. cbn. split; [apply vle_refl|]. split; [set_solver|done].
  - split; [done|]. intros n m Hn. cbn in Hn. destruct n as [|n]; [|done]. injection Hn as <-. intros _. split; [done|]. done.
Qed.

(** * Monotonicity *)

Lemma fnd_mono s w w' a i x : vle w w' → fnd s w a i x → fnd s w' a i x.
Proof. intros [Hw _] (ar & H1 & H2 & H3). exists ar. split; [done|]. split; [done|]. specialize (Hw (LCell a (slot ar i))). lia. Qed.
Lemma cov_mono s w w' i x : vle w w' → cov s w i x → cov s w' i x.
Proof.
  intros Hw [H1 H2]. split; [destruct Hw; set_solver|]. intros j m Hj Hle.
  eapply fnd_mono; [apply vjoin_mono; [exact Hw|apply vle_refl]|]. apply (H2 j m Hj). destruct Hw as [Hw _].
  specialize (Hw LArr). lia.
Qed.
Lemma cov_keep s s' w i x :
  (∀ w a, fnd s w a i x → fnd s' w a i x) →
  (∀ (j : nat) m, w_arr s' !! j = Some m → w_arr s !! j = Some m ∨ (∀ w, fnd s' (vjoin w (m_view m)) (m_val m) i x)) →
  cov s w i x → cov s' w i x.
Proof.
  intros Hf Ha [H1 H2]. split; [done|]. intros j m Hj Hle. destruct (Ha j m Hj) as [Hj'|Hn]; [|done].
  apply Hf. by apply (H2 j).
Qed.

Lemma thief_keep s s' l l' pt :
  p_top s' = p_top s → sc_top s <= sc_top s' → (length (w_arrs s) <= length (w_arrs s'))%nat →
  (∀ x, head l = Some x → head l' = Some x ∧
     (∀ w a, fnd s w a (p_top s) x → fnd s' w a (p_top s) x) ∧ (∀ w, cov s w (p_top s) x → cov s' w (p_top s) x)) →
  (∀ (k : nat) m, w_bot s' !! k = Some m → w_bot s !! k = Some m ∨
     (p_top s < m_val m → ∃ x, head l' = Some x ∧ cov s' (m_view m) (p_top s) x)) →
  thief_ok s l pt → thief_ok s' l' pt.
Proof.
  intros Ht Hsc Har Hh Hb. destruct pt as [p v]. unfold thief_ok. cbn [fst snd].
  intros (H1 & H2 & H3). split; [done|]. split; [done|].
  destruct p as [|t|t|t|t a|t it]; rewrite ?Ht; [done|done| | | |].
  - destruct H3 as (Hta & Htb & H3). split; [done|]. split; [lia|]. intros E k m Hk Hle Hlt.
    destruct (Hb k m Hk) as [Hk'|Hn]; [|rewrite E in Hlt; rewrite E; by apply Hn].
    destruct (H3 E k m Hk' Hle Hlt) as (x & Hx & Hc). destruct (Hh x Hx) as (Hx' & _ & Hc').
    exists x. split; [done|]. rewrite E in *. by apply Hc'.
  - destruct H3 as (Hta & Htb & H3). split; [done|]. split; [lia|]. intros E.
    destruct (H3 E) as (x & Hx & Hc). destruct (Hh x Hx) as (Hx' & _ & Hc').
    exists x. split; [done|]. rewrite E in *. by apply Hc'.
  - destruct H3 as (Hta & Htb & He & Hl & H3). split; [done|]. split; [lia|]. split; [done|]. split; [lia|]. intros E.
    destruct (H3 E) as (x & Hx & Hev & Hc). destruct (Hh x Hx) as (Hx' & Hc' & _).
    exists x. split; [done|]. split; [done|]. rewrite E in *. by apply Hc'.
  - destruct H3 as (Hta & Htb & H3). split; [done|]. split; [lia|]. intros E.
    destruct (H3 E) as (x & Hx & Hev & Hc). destruct (Hh x Hx) as (Hx' & _ & _).
    exists x. done.
Qed.

(** When [_top] advances, no thief can succeed any more. *)
Lemma thief_top s s' l l' pt :
  p_top s' = p_top s + 1 → sc_top s <= sc_top s' → (length (w_arrs s) <= length (w_arrs s'))%nat →
  thief_ok s l pt → thief_ok s' l' pt.
Proof.
  intros Ht Hsc Har. destruct pt as [p v]. unfold thief_ok. cbn [fst snd].
  intros (H1 & H2 & H3). split; [done|]. split; [done|].
  destruct p as [|t|t|t|t a|t it]; rewrite ?Ht; [done|lia| | | |].
  - destruct H3 as (Hta & Htb & H3). split; [lia|]. split; lia.
  - destruct H3 as (Hta & Htb & H3). split; [lia|]. split; lia.
  - destruct H3 as (Hta & Htb & He & Hl & H3). split; [lia|]. split; [lia|]. split; [done|]. split; lia.
  - destruct H3 as (Hta & Htb & H3). split; [lia|]. split; lia.
Qed.

(** A thief that learns more. *)
Lemma thief_learn s l p t t' :
  vle (t_cur t) (t_cur t') → vle (t_cur t') (t_acq t') → vle (t_acq t) (t_acq t') →
  thief_ok s l (p, t) → thief_ok s l (p, t').
Proof.
  intros Hc Hca Ha. unfold thief_ok. cbn [fst snd]. intros (H1 & H2 & H3).
  split; [done|]. split; [destruct Hc; set_solver|].
  destruct p as [|tt|tt|tt|tt a|tt it]; [done| | | | |].
  - destruct H3 as [H3 H4]. split; [done|]. destruct Ha as [Ha _]. specialize (Ha LTop). lia.
  - destruct H3 as (Hta & Htb & H3). split; [done|]. split; [done|]. intros E k m Hk Hle Hlt.
    apply (H3 E k m Hk); [|done]. destruct Hc as [Hc _]. specialize (Hc LBot). lia.
  - destruct H3 as (Hta & Htb & H3). split; [done|]. split; [done|]. intros E.
    destruct (H3 E) as (x & Hx & Hcv). exists x. split; [done|]. by eapply cov_mono.
  - destruct H3 as (Hta & Htb & He & Hl & H3). split; [done|]. split; [done|]. split; [destruct Hc; set_solver|]. split; [done|].
    intros E. destruct (H3 E) as (x & Hx & Hev & Hcv). exists x. split; [done|]. split; [destruct Hc; set_solver|].
    by eapply fnd_mono.
  - destruct H3 as (Hta & Htb & H3). split; [done|]. split; [done|]. intros E.
    destruct (H3 E) as (x & Hx & Hev & Hcv). exists x. split; [done|]. split; [destruct Hc; set_solver|]. done.
Qed.

Lemma thief_t_inv s l ca pt :
  q_inv (p_q s) (p_o (p_cur s) (w_opc s)) ca l → thief_ok s l pt → t_inv (p_q s) (p_end s) l (p_t pt.1).
Proof.
  intros (Hcur & Hp2 & Hlen & Hcap & Hel). change (logical_end _ _) with (p_end s) in Hlen. cbn [p_q q_top] in Hlen.
  assert (∀ x, head l = Some x → p_top s < p_end s) as Hne by (destruct l; cbn in *; [done|lia]).
  destruct pt as [p v]. unfold thief_ok. cbn [fst snd]. intros (_ & _ & H3).
  destruct p as [|t|t|t|t a|t it]; cbn [p_t t_inv p_q q_top q_arrs]; [done|lia|lia| | |].
  - destruct H3 as (Hta & Htb & H3). split; [done|]. intros E. destruct (H3 E) as (x & Hx & _). rewrite E. eauto.
  - destruct H3 as (Hta & Htb & He & Hl & H3). split; [done|].
    destruct (lookup_lt_is_Some_2 _ _ Hl) as [ar Har]. exists (p_arr ar). rewrite list_lookup_fmap, Har. split; [done|].
    intros E. destruct (H3 E) as (x & Hx & _ & ar' & Har' & Hv & _). split; [rewrite E; eauto|].
    rewrite arr_pop_proj. congruence.
  - destruct H3 as (Hta & Htb & H3). split; [done|]. intros E. destruct (H3 E) as (x & Hx & _ & ->). split; [rewrite E; eauto|]. done.
Qed.
End proofs.
