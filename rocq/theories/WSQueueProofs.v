(** Invariant of the work-stealing queue. *)
From Verif Require Import Base WSQueue.
Ltac Zify.zify_post_hook ::= Z.div_mod_to_equations.
Local Open Scope Z_scope.

(** * Specification: a double-ended queue *)

Inductive dop (A : Type) := DPush (x : A) | DPop (x : A) | DPopEmpty | DSteal (x : A).
Arguments DPush {_}. Arguments DPop {_}. Arguments DPopEmpty {_}. Arguments DSteal {_}.

(** Histories of a deque and its contents, front first: pushing and popping at the back, stealing at the
    front, and finding it empty. *)
Inductive deque_run {A} : list (dop A) → list A → Prop :=
  | dr_nil : deque_run [] []
  | dr_push h l x : deque_run h l → deque_run (h ++ [DPush x]) (l ++ [x])
  | dr_pop h l x : deque_run h (l ++ [x]) → deque_run (h ++ [DPop x]) l
  | dr_empty h : deque_run h [] → deque_run (h ++ [DPopEmpty]) []
  | dr_steal h l x : deque_run h (x :: l) → deque_run (h ++ [DSteal x]) l.

(** The owner's operations and the stolen items of a deque history and of an event log. *)
Definition d_owner {A} (d : dop A) : option (event A) :=
  match d with DPush x => Some (EPush x) | DPop x => Some (EPop (Some x)) | DPopEmpty => Some (EPop None)
  | DSteal _ => None end.
Definition d_steal {A} (d : dop A) : option A := match d with DSteal x => Some x | _ => None end.
Definition e_owner {A} (e : event A) : option (event A) := match e with ESteal _ => None | _ => Some e end.
Definition e_steal {A} (e : event A) : option A := match e with ESteal r => r | _ => None end.

(** * Arrays *)

Definition pow2Z (c : Z) : Prop := ∃ k, 0 <= k ∧ c = 2 ^ k.

Lemma pow2Z_pos c : pow2Z c → 0 < c.
Proof. intros (k & Hk & ->). by apply Z.pow_pos_nonneg. Qed.
Lemma pow2Z_double c : pow2Z c → pow2Z (2 * c).
Proof. intros (k & Hk & ->). exists (Z.succ k). split; [lia|]. by rewrite Z.pow_succ_r. Qed.

Lemma mask_mod c i : pow2Z c → Z.land i (c - 1) = i mod c.
Proof.
  intros (k & Hk & ->). rewrite <-Z.land_ones by done. f_equal. rewrite Z.ones_equiv. lia.
Qed.

Lemma mod_close_inj c i j : 0 < c → i mod c = j mod c → Z.abs (i - j) < c → i = j.
Proof.
  intros Hc Hm Ha. pose proof (Z.div_mod i c ltac:(lia)). pose proof (Z.div_mod j c ltac:(lia)).
  assert (i - j = c * (i / c - j / c)) as E by nia.
  assert (i / c - j / c = 0) by nia. nia.
Qed.

Section proofs.
Context {A : Type}.
Implicit Types (a : arr A) (q : wsq A).

Lemma pop_push_same a i x : arr_pop (arr_push a i x) i = Some x.
Proof. unfold arr_pop, arr_push. cbn. apply lookup_insert. Qed.

Lemma pop_push_other a i j x :
  pow2Z (a_cap a) → Z.abs (i - j) < a_cap a → i ≠ j → arr_pop (arr_push a i x) j = arr_pop a j.
Proof.
  intros Hp Hd Hne. unfold arr_pop, arr_push. cbn [a_cap a_data]. apply lookup_insert_ne.
  rewrite !mask_mod by done. intros E. apply Hne. apply (mod_close_inj (a_cap a)); [by apply pow2Z_pos|done|done].
Qed.

Lemma copy_loop_spec n i (old new : arr A) :
  pow2Z (a_cap new) → Z.of_nat n <= a_cap new →
  a_cap (copy_loop n i old new) = a_cap new ∧
  (∀ j x, j < i → i + Z.of_nat n - j <= a_cap new → arr_pop new j = Some x →
     arr_pop (copy_loop n i old new) j = Some x) ∧
  (∀ j x, i <= j < i + Z.of_nat n → arr_pop old j = Some x → arr_pop (copy_loop n i old new) j = Some x).
Proof.
  revert i new. induction n as [|n IH]; intros i new Hp Hn; [cbn; repeat split; [done|intros; lia]|].
  cbn [copy_loop]. set (new' := match arr_pop old i with Some x => _ | None => _ end).
  assert (a_cap new' = a_cap new) as Hc by (subst new'; by destruct (arr_pop old i)).
  destruct (IH (i + 1) new') as (H1 & H2 & H3); [by rewrite Hc|rewrite Hc; lia|].
  split; [congruence|]. split.
  - intros j x Hj Hd Hx. apply H2; [lia|rewrite Hc; lia|].
    subst new'. destruct (arr_pop old i) as [y|]; [|done]. rewrite pop_push_other; [done|done|lia|lia].
  - intros j x Hj Hx. destruct (decide (j = i)) as [->|Hne].
    + apply H2; [lia|rewrite Hc; lia|]. subst new'. rewrite Hx. apply pop_push_same.
    + apply H3; [lia|done].
Qed.

Lemma grow_spec a b t :
  pow2Z (a_cap a) → b - t <= a_cap a →
  a_cap (arr_grow a b t) = 2 * a_cap a ∧
  (∀ j x, t <= j < b → arr_pop a j = Some x → arr_pop (arr_grow a b t) j = Some x).
Proof.
  intros Hp Hbt. pose proof (pow2Z_pos _ Hp). unfold arr_grow.
  destruct (copy_loop_spec (Z.to_nat (b - t)) t a (Arr (2 * a_cap a) ∅)) as (H1 & _ & H3).
  - by apply pow2Z_double.
  - cbn. lia.
  - split; [done|]. intros j x Hj. apply H3. lia.
Qed.

(** * Invariant *)

(** The logical end of the contents: a popped slot counts until the owner has decided. *)
Definition logical_end (q : wsq A) (o : opc A) : Z :=
  match o with
  | OPopB b _ => b + 1
  | OPopC b t _ | OPopD b t _ => if bool_decide (t < b) then b else b + 1
  | OPopE b _ => b + 1
  | _ => q_bot q
  end.

(** [l] are the contents; [ca] the current array. *)
Definition q_inv (q : wsq A) (o : opc A) (ca : arr A) (l : list A) : Prop :=
  q_arrs q !! q_cur q = Some ca ∧ pow2Z (a_cap ca) ∧
  Z.of_nat (length l) = logical_end q o - q_top q ∧
  Z.of_nat (length l) <= a_cap ca ∧
  (∀ k x, l !! k = Some x → arr_pop ca (q_top q + Z.of_nat k) = Some x).

(** The owner's local state; [pend] is the decided but not yet returned result. *)
Definition o_inv (q : wsq A) (o : opc A) (ca : arr A) (l : list A) (pend : list (event A)) : Prop :=
  match o with
  | OIdle => pend = []
  | OPushA x b => b = q_bot q ∧ pend = []
  | OPushB x b t => b = q_bot q ∧ t <= q_top q ∧ b - t <= a_cap ca ∧ pend = []
  | OPushC x b a => b = q_bot q ∧ a = q_cur q ∧ b - q_top q <= a_cap ca - 1 ∧ pend = []
  | OPushD x b => b = q_bot q ∧ b - q_top q <= a_cap ca - 1 ∧ arr_pop ca b = Some x ∧ pend = []
  | OPopA b a => b = q_bot q - 1 ∧ a = q_cur q ∧ pend = []
  | OPopB b a => b = q_bot q ∧ a = q_cur q ∧ pend = []
  | OPopC b t a => b = q_bot q ∧ a = q_cur q ∧ t <= q_top q ∧
      (t < b → ∃ x, pend = [EPop (Some x)] ∧ arr_pop ca b = Some x) ∧
      (t = b → pend = []) ∧
      (b < t → pend = [EPop None] ∧ q_top q = b + 1)
  | OPopD b t item => b = q_bot q ∧ t <= q_top q ∧ t <= b ∧
      (t < b → pend = [EPop item]) ∧
      (t = b → pend = [] ∧ (q_top q = t → item = head l))
  | OPopE b item => b = q_bot q ∧ pend = [EPop item] ∧ q_top q = b + 1
  end.

Definition t_inv (q : wsq A) (e : Z) (l : list A) (p : tpc A) : Prop :=
  match p with
  | TIdle => True
  | TA t => t <= q_top q
  | TB t => t <= q_top q ∧ (t = q_top q → t < e)
  | TC t a => t <= q_top q ∧ ∃ ar, q_arrs q !! a = Some ar ∧ (t = q_top q → t < e ∧ arr_pop ar t = head l)
  | TD t item => t <= q_top q ∧ (t = q_top q → t < e ∧ item = head l)
  end.

Definition s_inv (s : system A) (h : list (dop A)) (l : list A) (pend : list (event A)) : Prop :=
  ∃ ca, q_inv (s_q s) (s_owner s) ca l ∧ o_inv (s_q s) (s_owner s) ca l pend ∧
    Forall (t_inv (s_q s) (logical_end (s_q s) (s_owner s)) l) (s_thieves s) ∧
    deque_run h l ∧
    omap d_owner h = omap e_owner (s_log s) ++ pend ∧
    omap d_steal h = omap e_steal (s_log s).

Lemma bot_le_end q o ca l pend : o_inv q o ca l pend → q_bot q <= logical_end q o.
Proof.
  destruct o; cbn; intros Ho; try lia; try (case_bool_decide; lia).
Qed.

(** Thieves are not disturbed by a step that keeps [top], the contents' front and the arrays they may
    read. *)
Lemma t_inv_mono q q' e e' l l' p :
  q_top q' = q_top q → (q_top q < e → q_top q < e' ∧ head l' = head l) →
  (∀ (a : nat) ar, q_arrs q !! a = Some ar → ∃ ar', q_arrs q' !! a = Some ar' ∧
     (q_top q < e → arr_pop ar (q_top q) = head l → arr_pop ar' (q_top q) = head l)) →
  t_inv q e l p → t_inv q' e' l' p.
Proof.
  intros Ht He Ha. destruct p as [|t|t|t a|t item]; cbn; rewrite ?Ht; [done|done| | |].
  - intros [H1 H2]. split; [done|]. intros E. specialize (H2 E). subst. by apply He.
  - intros (H1 & ar & Hr & H2). split; [done|]. destruct (Ha a ar Hr) as (ar' & Hr' & Hp). exists ar'.
    split; [done|]. intros E. destruct (H2 E) as [H3 H4]. subst t. destruct (He H3) as [H5 H6].
    split; [done|]. rewrite H6. by apply Hp.
  - intros [H1 H2]. split; [done|]. intros E. destruct (H2 E) as [H3 H4]. subst t.
    destruct (He H3) as [H5 H6]. split; [done|]. by rewrite H6.
Qed.

(** Nor by a step that advances [top]. *)
Lemma t_inv_top q q' e e' l l' p :
  q_arrs q' = q_arrs q → q_top q' = q_top q + 1 → t_inv q e l p → t_inv q' e' l' p.
Proof.
  intros Ha Ht. destruct p as [|t|t|t a|t item]; cbn; rewrite ?Ht, ?Ha; [done|lia|lia| |].
  - intros (H1 & ar & Hr & _). split; [lia|]. exists ar. split; [done|]. lia.
  - intros [H1 _]. split; [lia|]. lia.
Qed.

Lemma omap_snoc {B C} (f : B → option C) h x : omap f (h ++ [x]) = omap f h ++ match f x with Some y => [y] | None => [] end.
Proof. rewrite omap_app. cbn. by destruct (f x). Qed.

Lemma s_inv_init c n :
  pow2Z c → s_inv (Sys (wsq_init c) OIdle (replicate n TIdle) []) [] [] [].
Proof.
  intros Hc. exists (Arr c ∅). cbn. pose proof (pow2Z_pos _ Hc).
  split; [|split; [done|split; [|split; [constructor|done]]]].
  - unfold q_inv. cbn. repeat split; try done; lia.
  - apply Forall_replicate. done.
Qed.


(** How a step changes the contents. *)
Definition l_step (q q' : wsq A) (e : option (event A)) (l l' : list A) : Prop :=
  l' = l ∨ (∃ x, e = Some (EPush x) ∧ l' = l ++ [x] ∧ q_top q' = q_top q) ∨
  (∃ x, l = l' ++ [x] ∧ (l' ≠ [] ∧ q_top q' = q_top q ∨ q_top q' = q_top q + 1)).

Lemma owner_step_inv q o ts log q' o' e h l pend :
  s_inv (Sys q o ts log) h l pend → owner_step q o = Some (q', o', e) →
  ∃ h' l' pend', s_inv (Sys q' o' ts (add_event log e)) h' l' pend' ∧ l_step q q' e l l'.
Proof.
  intros (ca & (Hcur & Hp2 & Hlen & Hcap & Hel) & Ho & Ht & Hd & Hlo & Hls). cbn [s_q s_owner s_thieves s_log] in *.
  pose proof (pow2Z_pos _ Hp2) as Hpos.
  destruct o as [|x b|x b t|x b a|x b|b a|b a|b t a|b t item|b item]; cbn [owner_step] in *; intros Hs.
  - done.
  - (* load top *)
    injection Hs as <- <- <-. destruct Ho as [-> ->]. exists h, l, []. split; [|by left]. exists ca. cbn in *.
    split; [done|]. split; [|done]. repeat split; lia.
  - (* grow *)
    destruct Ho as (-> & Htt & Hbt & ->). rewrite Hcur in Hs. cbn in Hs. case_bool_decide as Hg.
    + injection Hs as <- <- <-. exists h, l, []. split; [|by left].
      destruct (grow_spec ca (q_bot q) t Hp2 Hbt) as [Hgc Hgp].
      exists (arr_grow ca (q_bot q) t). cbn in *.
      split; [|split; [|split; [|done]]].
      * unfold q_inv. cbn. rewrite lookup_app_r, Nat.sub_diag by lia.
        split; [done|]. rewrite Hgc. split; [by apply pow2Z_double|]. split; [done|]. split; [lia|].
        intros k x' Hk. apply Hgp; [|by apply Hel]. apply lookup_lt_Some in Hk. lia.
      * repeat split; try done. rewrite Hgc. lia.
      * eapply Forall_impl; [exact Ht|]. intros p. apply t_inv_mono; [done|done|]. cbn.
        intros i ar Hi. exists ar. rewrite lookup_app_l by (by eapply lookup_lt_Some). done.
    + injection Hs as <- <- <-. exists h, l, []. split; [|by left]. exists ca. cbn in *.
      split; [done|]. split; [|done]. repeat split; lia.
  - (* store the element *)
    destruct Ho as (-> & -> & Hbc & ->). injection Hs as <- <- <-. exists h, l, []. split; [|by left].
    exists (arr_push ca (q_bot q) x). cbn in *.
    split; [|split; [|split; [|done]]].
    + unfold q_inv. cbn. rewrite list_lookup_alter, Hcur. split; [done|]. cbn. split; [done|].
      split; [done|]. split; [done|]. intros k y Hk. rewrite pop_push_other; [by apply Hel|done| |];
        apply lookup_lt_Some in Hk; lia.
    + repeat split; try done. apply pop_push_same.
    + eapply Forall_impl; [exact Ht|]. intros p. apply t_inv_mono; [done|done|]. cbn.
      intros i ar Hi. destruct (decide (q_cur q = i)) as [<-|Hne].
      * rewrite list_lookup_alter, Hi. assert (ar = ca) as -> by congruence. eexists. split; [done|].
        intros Hlt Hh. rewrite pop_push_other; [done|done|lia|lia].
      * rewrite list_lookup_alter_ne by done. eauto.
  - (* publish *)
    destruct Ho as (-> & Hbc & Hx & ->). injection Hs as <- <- <-. exists (h ++ [DPush x]), (l ++ [x]), []. split; [|right; left; by exists x].
    exists ca. cbn in *. split; [|split; [done|split; [|split; [by constructor|split]]]].
    + unfold q_inv. cbn. rewrite app_length. cbn. split; [done|]. split; [done|]. split; [lia|]. split; [lia|].
      intros k y Hk. apply lookup_app_Some in Hk as [Hk|[Hge Hk]]; [by apply Hel|].
      apply list_lookup_singleton_Some in Hk as [Hk <-]. replace (q_top q + Z.of_nat k) with (q_bot q) by lia. done.
    + eapply Forall_impl; [exact Ht|]. intros p. apply t_inv_mono; [done| |cbn; eauto]. cbn.
      intros Hlt. split; [lia|]. destruct l; [cbn in *; lia|done].
    + rewrite !omap_snoc, Hlo. cbn. by rewrite !app_nil_r.
    + rewrite !omap_snoc, Hls. cbn. by rewrite !app_nil_r.
  - (* reserve the last slot *)
    destruct Ho as (-> & -> & ->). injection Hs as <- <- <-. exists h, l, []. split; [|by left]. exists ca. cbn in *.
    split; [|split; [|split; [|done]]].
    + unfold q_inv. cbn. repeat split; try done. lia.
    + done.
    + eapply Forall_impl; [exact Ht|]. intros p. apply t_inv_mono; [done| |cbn; eauto]. cbn. intros. split; [lia|done].
  - (* load top and decide *)
    destruct Ho as (-> & -> & ->). injection Hs as <- <- <-.
    destruct (Z.lt_trichotomy (q_top q) (q_bot q)) as [Hlt|[Heq|Hgt]].
    + (* take it *)
      destruct l as [|x l _] using rev_ind; [cbn in *; lia|].
      rewrite app_length in *. cbn [length] in *. cbn [logical_end] in Hlen.
      exists (h ++ [DPop x]), l, [EPop (Some x)]. split; [|right; right; exists x; split; [done|]; left; split; [by destruct l; [cbn in *; lia|]|done]]. exists ca. cbn [s_q s_owner s_thieves s_log add_event].
      split; [|split; [|split; [|split; [by constructor|split]]]].
      * unfold q_inv. cbn [logical_end]. rewrite bool_decide_eq_true_2 by done.
        split; [done|]. split; [done|]. split; [lia|]. split; [lia|].
        intros k y Hk. apply Hel. by apply lookup_app_l_Some.
      * cbn. split; [done|]. split; [done|]. split; [lia|]. split; [|split; lia].
        intros _. exists x. split; [done|].
        specialize (Hel (length l) x). rewrite lookup_app_r, Nat.sub_diag in Hel by lia.
        replace (q_bot q) with (q_top q + Z.of_nat (length l)) by lia. by apply Hel.
      * eapply Forall_impl; [exact Ht|]. intros p. apply t_inv_mono; [done| |eauto]. cbn.
        rewrite bool_decide_eq_true_2 by done. intros _. split; [done|]. destruct l; [cbn in *; lia|done].
      * rewrite omap_snoc, Hlo. cbn. by rewrite !app_nil_r.
      * rewrite omap_snoc, Hls. cbn. by rewrite !app_nil_r.
    + exists h, l, []. split; [|by left]. exists ca. cbn [s_q s_owner s_thieves s_log add_event] in *.
      split; [|split; [|split; [|done]]].
      * unfold q_inv. cbn in *. rewrite bool_decide_eq_false_2 by lia. done.
      * cbn. split; [done|]. split; [done|]. split; [lia|]. split; [lia|]. split; [done|lia].
      * eapply Forall_impl; [exact Ht|]. intros p. apply t_inv_mono; [done| |eauto]. cbn.
        rewrite bool_decide_eq_false_2 by lia. done.
    + cbn in Hlen. assert (l = []) as -> by (destruct l; [done|cbn in *; lia]). cbn in Hlen.
      exists (h ++ [DPopEmpty]), [], [EPop None]. split; [|by left]. exists ca. cbn [s_q s_owner s_thieves s_log add_event].
      split; [|split; [|split; [|split; [by constructor|split]]]].
      * unfold q_inv. cbn. rewrite bool_decide_eq_false_2 by lia. split; [done|]. split; [done|]. split; [lia|]. done.
      * cbn. split; [done|]. split; [done|]. split; [lia|]. split; [lia|]. split; [lia|]. split; [done|lia].
      * eapply Forall_impl; [exact Ht|]. intros p. apply t_inv_mono; [done| |eauto]. cbn.
        rewrite bool_decide_eq_false_2 by lia. done.
      * rewrite omap_snoc, Hlo. cbn. by rewrite !app_nil_r.
      * rewrite omap_snoc, Hls. cbn. by rewrite !app_nil_r.
  - (* read the element *)
    destruct Ho as (-> & -> & Htt & Ho1 & Ho2 & Ho3). case_bool_decide as Hle.
    + rewrite Hcur in Hs. cbn in Hs. injection Hs as <- <- <-. exists h, l, pend. split; [|by left]. exists ca. cbn in *.
      split; [done|]. split; [|done]. split; [done|]. split; [done|]. split; [done|]. split.
      * intros Hlt. destruct (Ho1 Hlt) as (x & -> & ->). done.
      * intros ->. split; [by apply Ho2|]. intros Heq. rewrite bool_decide_eq_false_2 in Hlen by lia.
        destruct l as [|x l]; [cbn in Hlen; lia|]. specialize (Hel 0%nat x eq_refl).
        rewrite Z.add_0_r, Heq in Hel. done.
    + injection Hs as <- <- <-. destruct (Ho3 ltac:(lia)) as [-> Htop]. exists h, l, [EPop None]. split; [|by left]. exists ca. cbn in *.
      rewrite bool_decide_eq_false_2 in * by lia. split; [|split; [done|split; [done|done]]].
      unfold q_inv. cbn. done.
  - (* compare-exchange *)
    destruct Ho as (-> & Htt & Hle & Ho1 & Ho2). case_bool_decide as Heq.
    + subst t. destruct (Ho2 eq_refl) as [-> Hit].
      cbn [logical_end] in Hlen, Ht. rewrite bool_decide_eq_false_2 in Hlen, Ht by lia.
      case_bool_decide as Htop.
      * injection Hs as <- <- <-. destruct l as [|x [|? ?]]; cbn in Hlen; [lia| |lia].
        cbn in Hit. rewrite (Hit Htop) in *.
        exists (h ++ [DPop x]), [], [EPop (Some x)]. split; [|right; right; exists x; split; [done|]; right; cbn; lia]. exists ca. cbn [s_q s_owner s_thieves s_log add_event].
        split; [|split; [|split; [|split; [by apply (dr_pop h [] x)|split]]]].
        -- unfold q_inv. cbn. split; [done|]. split; [done|]. split; [lia|]. split; [lia|done].
        -- done.
        -- eapply Forall_impl; [exact Ht|]. intros p. apply t_inv_top; [done|]. cbn. lia.
        -- rewrite omap_snoc, Hlo. cbn. by rewrite !app_nil_r.
        -- rewrite omap_snoc, Hls. cbn. by rewrite !app_nil_r.
      * injection Hs as <- <- <-. assert (l = []) as -> by (destruct l; [done|cbn in Hlen; lia]). cbn in Hlen.
        exists (h ++ [DPopEmpty]), [], [EPop None]. split; [|by left]. exists ca. cbn [s_q s_owner s_thieves s_log add_event].
        split; [|split; [|split; [|split; [by constructor|split]]]].
        -- unfold q_inv. cbn. split; [done|]. split; [done|]. split; [lia|]. done.
        -- cbn. repeat split; lia.
        -- done.
        -- rewrite omap_snoc, Hlo. cbn. by rewrite !app_nil_r.
        -- rewrite omap_snoc, Hls. cbn. by rewrite !app_nil_r.
    + injection Hs as <- <- <-. rewrite (Ho1 ltac:(lia)) in *.
      cbn [logical_end] in Hlen, Ht. rewrite bool_decide_eq_true_2 in Hlen, Ht by lia.
      exists h, l, []. split; [|by left]. exists ca. cbn [s_q s_owner s_thieves s_log add_event logical_end].
      split; [done|]. split; [done|]. split; [done|]. split; [done|]. split.
      * rewrite omap_snoc, Hlo. cbn. by rewrite !app_nil_r.
      * rewrite omap_snoc, Hls. cbn. by rewrite !app_nil_r.
  - (* restore bottom and return *)
    destruct Ho as (-> & -> & Htop). injection Hs as <- <- <-. cbn [logical_end] in Hlen, Ht.
    exists h, l, []. split; [|by left]. exists ca. cbn [s_q s_owner s_thieves s_log add_event logical_end].
    split; [|split; [done|split; [|split; [done|split]]]].
    + unfold q_inv. cbn. done.
    + eapply Forall_impl; [exact Ht|]. intros p. apply t_inv_mono; [done|done|cbn; eauto].
    + rewrite omap_snoc, Hlo. cbn. by rewrite !app_nil_r.
    + rewrite omap_snoc, Hls. cbn. by rewrite !app_nil_r.
Qed.

Lemma thief_step_inv q o ts log i p q' p' e h l pend :
  s_inv (Sys q o ts log) h l pend → ts !! i = Some p → thief_step q p = Some (q', p', e) →
  ∃ h' l', s_inv (Sys q' o (<[i := p']> ts) (add_event log e)) h' l' pend ∧
    (l' = l ∧ q_top q' = q_top q ∨ ∃ x, l = x :: l' ∧ q_top q' = q_top q + 1 ∧ e = Some (ESteal (Some x))).
Proof.
  intros (ca & Hq & Ho & Ht & Hd & Hlo & Hls) Hi Hs. cbn [s_q s_owner s_thieves s_log] in *.
  pose proof (bot_le_end _ _ _ _ _ Ho) as Hbe.
  pose proof (proj1 (Forall_lookup _ _) Ht i p Hi) as Hp.
  destruct p as [|t|t|t a|t item]; cbn [thief_step t_inv] in *.
  - injection Hs as <- <- <-. exists h, l. split; [|by left]. exists ca. cbn in *.
    split; [done|]. split; [done|]. split; [|done]. apply Forall_insert; [done|]. cbn. lia.
  - case_bool_decide as Hlt.
    + injection Hs as <- <- <-. exists h, l. split; [|by left]. exists ca. cbn in *.
      split; [done|]. split; [done|]. split; [|done]. apply Forall_insert; [done|]. cbn. lia.
    + injection Hs as <- <- <-. exists h, l. split; [|by left]. exists ca. cbn [s_q s_owner s_thieves s_log add_event].
      split; [done|]. split; [done|]. split; [by apply Forall_insert|]. split; [done|].
      rewrite !omap_snoc. cbn. by rewrite !app_nil_r.
  - injection Hs as <- <- <-. exists h, l. split; [|by left]. exists ca. cbn in *.
    split; [done|]. split; [done|]. split; [|done]. apply Forall_insert; [done|]. cbn.
    destruct Hq as (Hcur & Hp2 & Hlen & Hcap & Hel). destruct Hp as [Hp1 Hp2'].
    split; [done|]. exists ca. split; [done|]. intros E. split; [by apply Hp2'|]. specialize (Hp2' E).
    destruct l as [|x l]; [cbn in Hlen; lia|]. specialize (Hel 0%nat x eq_refl). rewrite Z.add_0_r in Hel.
    by subst t.
  - destruct Hp as (Hp1 & ar & Har & Hp2). rewrite Har in Hs. cbn in Hs. injection Hs as <- <- <-.
    exists h, l. split; [|by left]. exists ca. cbn in *.
    split; [done|]. split; [done|]. split; [|done]. apply Forall_insert; [done|]. cbn. done.
  - destruct Hp as [Hp1 Hp2]. case_bool_decide as Htop.
    + injection Hs as <- <- <-. destruct (Hp2 ltac:(done)) as [Hte ->]. subst t.
      destruct Hq as (Hcur & Hp2q & Hlen & Hcap & Hel).
      destruct l as [|x l]; [cbn in Hlen; lia|]. cbn [length] in *.
      exists (h ++ [DSteal x]), l. split; [|right; by exists x]. exists ca. cbn [s_q s_owner s_thieves s_log add_event head].
      split; [|split; [|split; [|split; [by constructor|split]]]].
      * unfold q_inv. split; [done|]. split; [done|]. replace (logical_end (set_top q (q_top q + 1)) o) with (logical_end q o) by (by destruct o).
        cbn. split; [lia|]. split; [lia|]. intros k y Hk. specialize (Hel (S k) y Hk).
        by replace (q_top q + 1 + Z.of_nat k) with (q_top q + Z.of_nat (S k)) by lia.
      * clear Hlo Hls Hd Hp2. destruct o; cbn in *; try done.
        -- destruct Ho as (? & ? & ? & ?). repeat split; try done; lia.
        -- destruct Ho as (? & ? & ? & ?). repeat split; try done; lia.
        -- destruct Ho as (? & ? & ? & ?). repeat split; try done; lia.
        -- destruct Ho as (? & ? & ? & ? & ? & Ho3). repeat split; try done; try lia.
           all: intros; exfalso; destruct Ho3; [done|]; rewrite bool_decide_eq_false_2 in Hte by lia; lia.
        -- destruct Ho as (? & ? & ? & ? & Ho2). repeat split; try done; try lia.
           all: try lia; try (by apply Ho2).
        -- destruct Ho as (? & ? & ?). lia.
      * apply Forall_insert; [|done]. eapply Forall_impl; [exact Ht|]. intros p. by apply t_inv_top.
      * rewrite !omap_snoc, Hlo. cbn. by rewrite !app_nil_r.
      * rewrite !omap_snoc, Hls. done.
    + injection Hs as <- <- <-. exists h, l. split; [|by left]. exists ca. cbn [s_q s_owner s_thieves s_log add_event].
      split; [done|]. split; [done|]. split; [by apply Forall_insert|]. split; [done|].
      rewrite !omap_snoc. cbn. by rewrite !app_nil_r.
Qed.

Theorem sys_inv c n s : pow2Z c → sys_reach c n s → ∃ h l pend, s_inv s h l pend.
Proof.
  intros Hc. induction 1 as [|s s' _ (h & l & pend & IH) Hs].
  - eexists _, _, _. by apply s_inv_init.
  - destruct Hs as [q ts log x|q ts log|q o ts log q' o' e Ho|q o ts log i p q' p' e Hi Ht].
    + destruct IH as (ca & Hq & Ho & Hr). cbn in Ho. subst pend. exists h, l, []. exists ca. cbn in *. done.
    + destruct IH as (ca & Hq & Ho & Hr). cbn in Ho. subst pend. exists h, l, []. exists ca. cbn in *. done.
    + destruct (owner_step_inv _ _ _ _ _ _ _ _ _ _ IH Ho) as (h' & l' & pend' & H' & _). eauto.
    + destruct (thief_step_inv _ _ _ _ _ _ _ _ _ _ _ _ IH Hi Ht) as (h' & l' & H' & _). eauto.
Qed.
End proofs.
