(** Systems that do not throw, with any number of workers. *)
From Verif Require Import Base Task StageThrow.
Local Open Scope nat_scope.

(** * What the workers still have to do *)
Definition cur_acts (c : option zpc) : list act :=
  match c with None => [] | Some (ZRun t) => [ARun t] | Some (ZSub t) => [ASub t] | Some (ZCheck t) => [ACheck t] end.
Definition w_acts (x : zworker) : list act := (ARun <$> zw_queue x) ++ cur_acts (zw_cur x).
Definition acts (ws : list zworker) : list act := concat (w_acts <$> ws).

Local Arguments acts : simpl never.
Lemma acts_at (ws : list zworker) (w : nat) (x : zworker) : ws !! w = Some x →
  ∃ R, acts ws ≡ₚ w_acts x ++ R ∧ ∀ f, acts (alter f w ws) ≡ₚ w_acts (f x) ++ R.
Proof.
  intros Hx. exists (acts (take w ws) ++ acts (drop (S w) ws)). assert (length (take w ws) = w) as Hl by (rewrite take_length; apply lookup_lt_Some in Hx; lia).
  assert (∀ y, acts (take w ws ++ y :: drop (S w) ws) ≡ₚ w_acts y ++ acts (take w ws) ++ acts (drop (S w) ws)) as E.
  { intros y. unfold acts. rewrite fmap_app, concat_app. cbn [fmap list_fmap concat]. rewrite !app_assoc. apply Permutation_app_tail, Permutation_app_comm. }
  split.
  - rewrite <- (take_drop_middle _ _ _ Hx) at 1. apply E.
  - intros f. rewrite <- (take_drop_middle _ _ _ Hx) at 1. rewrite <- (Nat.add_0_r w) at 1. rewrite <- Hl at 1. rewrite alter_app_r. cbn [alter list_alter]. apply E.
Qed.

Lemma acts_submit ws t : is_Some (ws !! 0) → acts (alter (λ x, zw_set_queue (zw_queue x ++ [t]) x) 0 ws) ≡ₚ ARun t :: acts ws.
Proof.
  intros [x Hx]. destruct (acts_at _ _ _ Hx) as (R & E1 & E2). rewrite E2, E1. unfold w_acts. cbn [zw_set_queue zw_queue zw_cur]. rewrite fmap_app. cbn [fmap list_fmap].
  rewrite <- !app_assoc. cbn [app]. symmetry. apply Permutation_middle.
Qed.
Lemma acts_cur ws w x a : ws !! w = Some x → cur_acts (zw_cur x) = [a] →
  ∃ R, acts ws ≡ₚ a :: R ∧ ∀ c, acts (alter (zw_set_cur c) w ws) ≡ₚ cur_acts c ++ R.
Proof.
  intros Hx Hc. destruct (acts_at _ _ _ Hx) as (R & E1 & E2). exists ((ARun <$> zw_queue x) ++ R). unfold w_acts in *. split.
  - rewrite E1, Hc, <- app_assoc. symmetry. apply Permutation_middle.
  - intros c. rewrite E2. cbn [zw_set_cur zw_queue zw_cur]. rewrite !app_assoc. apply Permutation_app_tail, Permutation_app_comm.
Qed.
Lemma take_last {X} (q : list X) t : last q = Some t → q = take (length q - 1) q ++ [t].
Proof. intros H. apply last_Some in H as [l ->]. rewrite app_length. cbn. by rewrite Nat.add_sub, take_app. Qed.
Lemma get_task_acts w v s s' x : z_workers s !! w = Some x → zw_cur x = None → z_get_task w v s = Some s' →
  acts (z_workers s') ≡ₚ acts (z_workers s) ∧ z_tasks s' = z_tasks s ∧ z_code s' = z_code s ∧ z_dead s' = z_dead s ∧ z_events s' = z_events s ∧ z_end s' = z_end s.
Proof.
  intros Hx Hc H. unfold z_get_task in H. rewrite Hx in H. cbn in H. destruct (last (zw_queue x)) as [t|] eqn:Hl.
  - injection H as <-. split; [|done]. cbn. destruct (acts_at _ _ _ Hx) as (R & E1 & E2). rewrite <- list_alter_compose. rewrite E2, E1. apply Permutation_app_tail.
    unfold w_acts. cbn [compose zw_set_cur zw_set_queue zw_queue zw_cur cur_acts]. rewrite Hc. cbn [cur_acts]. rewrite app_nil_r. rewrite (take_last _ _ Hl) at 3. by rewrite fmap_app.
  - destruct v as [j|]; [|by injection H as <-]. destruct (decide _) as [|Hj]; [done|]. destruct (z_workers s !! j) as [y|] eqn:Hy; [|done]. cbn in H.
    destruct (zw_queue y) as [|t q] eqn:Hq; [by injection H as <-|]. injection H as <-. split; [|done]. cbn.
    destruct (acts_at _ _ _ Hy) as (R & E1 & E2). assert (alter (zw_set_queue q) j (z_workers s) !! w = Some x) as Hx2 by (by rewrite list_lookup_alter_ne).
    destruct (acts_at _ _ _ Hx2) as (R2 & E3 & E4). rewrite E4. assert (w_acts (zw_set_cur (Some (ZRun t)) x) ≡ₚ ARun t :: w_acts x) as ->.
    { unfold w_acts. cbn [zw_set_cur zw_queue zw_cur cur_acts]. rewrite Hc. cbn [cur_acts]. rewrite app_nil_r. symmetry. apply Permutation_cons_append. }
    cbn [app]. rewrite <- E3, E2, E1. unfold w_acts. rewrite Hq. cbn [zw_set_queue zw_queue zw_cur fmap list_fmap]. done.
Qed.

(** * The tasks of the current batch *)
Definition act_id (a : act) : nat := match a with ARun t | ASub t | ACheck t => t end.
Definition pend (T : nat) (a : act) : nat :=
  match a with ARun t | ASub t => if decide (T ≤ t) then 1 else 0 | ACheck t => if decide (T < t) then 1 else 0 end.
Definition own (t : nat) (a : act) : nat := match a with ARun u | ASub u | ACheck u => if decide (u = t) then 1 else 0 end.
Definition live (t : nat) (a : act) : nat := match a with ARun u | ASub u => if decide (u = t) then 1 else 0 | ACheck _ => 0 end.
Definition isrun (t : nat) (a : act) : nat := match a with ARun u => if decide (u = t) then 1 else 0 | _ => 0 end.
Notation cnt := sum_list_with.

Record binv (T : nat) (ts : list ztask) (A : list act) : Prop := BInv {
  bi_le : T ≤ length ts;
  bi_old : ∀ a, a ∈ A → act_id a < T → ∃ t x, a = ACheck t ∧ ts !! t = Some x ∧ t_parent (zt_task x) = None;
  bi_lt : ∀ a, a ∈ A → act_id a < length ts;
  bi_sum : cnt (pend T) A ≤ length ts - T;
  bi_parent : ∀ x, ts !! T = Some x → t_parent (zt_task x) = None ∧ t_ctr (zt_task x) = N.of_nat (cnt (pend T) A);
  bi_child : ∀ t x, T < t → ts !! t = Some x → t_parent (zt_task x) = Some T ∧ cnt (own t) A ≤ 1 ∧ t_ctr (zt_task x) = N.of_nat (cnt (live t) A);
  bi_done : ∀ t x, T ≤ t → ts !! t = Some x → cnt (isrun t) A = if t_done (zt_task x) then 0 else 1 }.

Global Instance cnt_perm (f : act → nat) : Proper ((≡ₚ) ==> (=)) (cnt f).
Proof. intros l l' H. induction H; cbn; lia. Qed.
Lemma binv_perm T ts A B : A ≡ₚ B → binv T ts A → binv T ts B.
Proof.
  intros H [? ? ? ? B5 B6 ?]. split; [done|..].
  - intros a. rewrite <- H. auto.
  - intros a. rewrite <- H. auto.
  - by rewrite <- H.
  - intros x. rewrite <- H. auto.
  - intros t x. rewrite <- H. auto.
  - intros t x. rewrite <- H. auto.
Qed.

Lemma cnt_in (f : act → nat) a A : a ∈ A → f a ≤ cnt f A.
Proof. induction 1; cbn; lia. Qed.
Lemma cnt_zero (f : act → nat) A : (∀ a, a ∈ A → f a = 0) → cnt f A = 0.
Proof. induction A as [|a A IH]; intros H; [done|]. cbn. rewrite (H a) by left. apply IH. intros b Hb. apply H. by right. Qed.

(** Nothing of the batch is left: a new batch can begin. *)
Lemma binv_end T ts A : binv T ts A → cnt (pend T) A = 0 → T < length ts → binv (length ts) ts A.
Proof.
  intros B H0 HT. assert (∀ a, a ∈ A → ∃ t x, a = ACheck t ∧ ts !! t = Some x ∧ t_parent (zt_task x) = None) as Ha.
  { intros a Ha. destruct (decide (act_id a < T)) as [|Hn]; [by apply (bi_old _ _ _ B)|]. pose proof (cnt_in (pend T) a A Ha) as Hp. rewrite H0 in Hp.
    destruct a as [t|t|t]; cbn in Hp, Hn; [rewrite decide_True in Hp by lia; lia| rewrite decide_True in Hp by lia; lia|].
    destruct (decide (T < t)); [lia|]. assert (t = T) as -> by lia. destruct (lookup_lt_is_Some_2 ts T HT) as [x Hx]. exists T, x. split; [done|]. split; [done|]. by apply (bi_parent _ _ _ B). }
  split.
  - done.
  - intros a Ha' _. by apply Ha.
  - apply B.
  - rewrite cnt_zero; [lia|]. intros a Ha'. destruct (Ha a Ha') as (t & x & -> & Hx & _). apply lookup_lt_Some in Hx. cbn. rewrite decide_False by lia. done.
  - intros x Hx. apply lookup_lt_Some in Hx. lia.
  - intros t x Ht Hx. apply lookup_lt_Some in Hx. lia.
  - intros t x Ht Hx. apply lookup_lt_Some in Hx. lia.
Qed.

Lemma binv_init : binv 0 [] [].
Proof. split; try done; by intros a Ha%elem_of_nil. Qed.

Lemma own_zero t A : (∀ a, a ∈ A → act_id a < t) → cnt (own t) A = 0 ∧ cnt (live t) A = 0 ∧ cnt (isrun t) A = 0.
Proof.
  intros H. split_and!; apply cnt_zero; intros a Ha; apply H in Ha; destruct a; cbn in *; try done; by rewrite decide_False by lia.
Qed.

(** Submitting the first task of a batch, and another one. *)
Lemma binv_first ts A y : binv (length ts) ts A → binv (length ts) (ts ++ [ZTask (Task None 1 false) y]) (ARun (length ts) :: A).
Proof.
  intros B. destruct (own_zero (length ts) A (bi_lt _ _ _ B)) as (Ho & Hl & Hr).
  assert (cnt (pend (length ts)) A = 0) as Hp by (pose proof (bi_sum _ _ _ B); lia).
  assert (∀ t x, length ts ≤ t → (ts ++ [ZTask (Task None 1 false) y]) !! t = Some x → t = length ts ∧ x = ZTask (Task None 1 false) y) as Hn.
  { intros t x Ht Hx. pose proof (lookup_lt_Some _ _ _ Hx) as Hlt. rewrite app_length in Hlt. cbn in Hlt. assert (t = length ts) as -> by lia. rewrite lookup_app_r, Nat.sub_diag in Hx by done. by injection Hx as <-. }
  split.
  - rewrite app_length. cbn. lia.
  - intros a [->|Ha]%elem_of_cons Hlt; [cbn in Hlt; lia|]. destruct (bi_old _ _ _ B a Ha Hlt) as (t & x & -> & Hx & Hpa). exists t, x. split; [done|]. split; [by apply lookup_app_l_Some|done].
  - intros a [->|Ha]%elem_of_cons; rewrite app_length; cbn; [lia|]. apply (bi_lt _ _ _ B) in Ha. lia.
  - cbn [cnt pend]. rewrite Hp, decide_True by done. rewrite app_length. cbn. lia.
  - intros x Hx. apply Hn in Hx as [_ ->]; [|done]. cbn [cnt pend]. rewrite Hp, decide_True by done. done.
  - intros t x Ht Hx. apply Hn in Hx as [-> ->]; lia.
  - intros t x Ht Hx. apply Hn in Hx as [-> ->]; [|done]. cbn [cnt isrun]. rewrite Hr, decide_True by done. done.
Qed.
Lemma binv_more T ts A y : binv T ts A → T < length ts → (N.of_nat (S (length ts - T)) < 65536)%N →
  binv T (alter (zt_upd (upd_ctr inc16)) T ts ++ [ZTask (Task (Some T) 1 false) y]) (ARun (length ts) :: A).
Proof.
  intros B HT Hlt. destruct (own_zero (length ts) A (bi_lt _ _ _ B)) as (Ho & Hl & Hr). pose proof (bi_sum _ _ _ B) as Hsum.
  set (ts' := alter _ _ _).
  assert (length ts' = length ts) as Hlen by apply alter_length.
  assert (∀ t x, (ts' ++ [ZTask (Task (Some T) 1 false) y]) !! t = Some x → t = length ts ∧ x = ZTask (Task (Some T) 1 false) y ∨ t ≠ length ts ∧ t = T ∧ (∃ x0, ts !! T = Some x0 ∧ x = zt_upd (upd_ctr inc16) x0) ∨ t ≠ length ts ∧ t ≠ T ∧ ts !! t = Some x) as Hn.
  { intros t x Hx. destruct (decide (t < length ts)) as [Hd|Hd].
    - right. rewrite lookup_app_l in Hx by lia. unfold ts' in Hx. destruct (decide (t = T)) as [->|Hne].
      + left. rewrite list_lookup_alter in Hx. split; [lia|]. split; [done|]. destruct (ts !! T) as [x0|]; [|done]. cbn in Hx. injection Hx as <-. eauto.
      + right. rewrite list_lookup_alter_ne in Hx by done. split; [lia|done].
    - left. pose proof (lookup_lt_Some _ _ _ Hx) as Hlt'. rewrite app_length in Hlt'. cbn in Hlt'. assert (t = length ts) as -> by lia. rewrite lookup_app_r, Hlen, Nat.sub_diag in Hx by lia. by injection Hx as <-. }
  split.
  - rewrite app_length. cbn. lia.
  - intros a [->|Ha]%elem_of_cons Hlt'; [cbn in Hlt'; lia|]. destruct (bi_old _ _ _ B a Ha Hlt') as (t & x & -> & Hx & Hpa). exists t, x. split; [done|]. cbn in Hlt'. split; [|done]. apply lookup_app_l_Some. unfold ts'. by rewrite list_lookup_alter_ne by lia.
  - intros a [->|Ha]%elem_of_cons; rewrite app_length; cbn; [lia|]. apply (bi_lt _ _ _ B) in Ha. lia.
  - cbn [cnt pend]. rewrite decide_True by lia. rewrite app_length. cbn. lia.
  - intros x Hx. apply Hn in Hx as [[? _]|[(_ & _ & x0 & Hx0 & ->)|(_ & ? & _)]]; [lia| |done]. destruct (bi_parent _ _ _ B x0 Hx0) as [Hp1 Hp2].
    cbn [zt_upd upd_ctr zt_task t_parent t_ctr]. split; [done|]. rewrite Hp2. cbn [cnt pend]. rewrite decide_True by lia. unfold inc16, ctr_mod. rewrite N.mod_small; lia.
  - intros t x Ht Hx. apply Hn in Hx as [[-> ->]|[(_ & ? & _)|(Hne & _ & Hx)]]; [|lia|].
    + cbn [zt_task t_parent t_ctr cnt own live act_id]. rewrite Ho, Hl, !decide_True by done. split; [done|]. split; [lia|done].
    + destruct (bi_child _ _ _ B t x Ht Hx) as (H1 & H2 & H3). cbn [cnt own live act_id]. rewrite !decide_False by lia. done.
  - intros t x Ht Hx. apply Hn in Hx as [[-> ->]|[(_ & -> & x0 & Hx0 & ->)|(Hne & _ & Hx)]].
    + cbn [cnt isrun zt_task t_done]. by rewrite Hr, decide_True by done.
    + cbn [cnt isrun zt_upd upd_ctr zt_task t_done]. rewrite decide_False by lia. by apply (bi_done _ _ _ B).
    + cbn [cnt isrun]. rewrite decide_False by lia. by apply (bi_done _ _ _ B).
Qed.

(** The steps of a task. *)
Lemma binv_run T ts A t x : binv T ts (ARun t :: A) → ts !! t = Some x →
  T ≤ t ∧ t_done (zt_task x) = false ∧ binv T (alter (zt_upd set_done) t ts) (ASub t :: A).
Proof.
  intros B Hx. assert (T ≤ t) as HT.
  { destruct (decide (T ≤ t)); [done|]. destruct (bi_old _ _ _ B (ARun t)) as (? & ? & ? & _); [left|cbn; lia|done]. }
  split; [done|]. pose proof (bi_done _ _ _ B t x HT Hx) as Hd. cbn [cnt isrun] in Hd. rewrite decide_True in Hd by done.
  destruct (t_done (zt_task x)) eqn:Hdn; [lia|]. split; [done|].
  assert (∀ u z, alter (zt_upd set_done) t ts !! u = Some z → u = t ∧ z = zt_upd set_done x ∨ u ≠ t ∧ ts !! u = Some z) as Hn.
  { intros u z Hz. destruct (decide (u = t)) as [->|Hne]; [|right; by rewrite list_lookup_alter_ne in Hz]. left. rewrite list_lookup_alter, Hx in Hz. cbn in Hz. by injection Hz as <-. }
  split.
  - rewrite alter_length. apply B.
  - intros a [->|Ha]%elem_of_cons Hlt; [cbn in Hlt; lia|]. destruct (bi_old _ _ _ B a) as (u & z & -> & Hz & Hpa); [by right|done|]. cbn in Hlt. exists u, z. rewrite list_lookup_alter_ne by lia. done.
  - intros a Ha. rewrite alter_length. apply elem_of_cons in Ha as [->|Ha]; [by eapply lookup_lt_Some|]. apply (bi_lt _ _ _ B). by right.
  - rewrite alter_length. pose proof (bi_sum _ _ _ B) as H. cbn [cnt pend] in *. done.
  - intros z Hz. cbn [cnt pend]. apply Hn in Hz as [[<- ->]|[Hne Hz]].
    + destruct (bi_parent _ _ _ B x Hx) as [H1 H2]. done.
    + by apply (bi_parent _ _ _ B).
  - intros u z Hu Hz. apply Hn in Hz as [[-> ->]|[Hne Hz]].
    + destruct (bi_child _ _ _ B t x Hu Hx) as (H1 & H2 & H3). done.
    + destruct (bi_child _ _ _ B u z Hu Hz) as (H1 & H2 & H3). done.
  - intros u z Hu Hz. cbn [cnt isrun]. apply Hn in Hz as [[-> ->]|[Hne Hz]].
    + cbn. lia.
    + pose proof (bi_done _ _ _ B u z Hu Hz) as H. cbn [cnt isrun] in H. rewrite decide_False in H by done. done.
Qed.

Lemma own_live_zero t A : cnt (own t) A = 0 → cnt (live t) A = 0.
Proof.
  intros H. apply cnt_zero. intros a Ha. pose proof (cnt_in (own t) a A Ha) as H'. destruct a as [u|u|u]; cbn in *; [| |done]; destruct (decide (u = t)); try done; lia.
Qed.

Lemma binv_sub T ts A t x : binv T ts (ASub t :: A) → (N.of_nat (length ts - T) < 65536)%N → ts !! t = Some x →
  binv T (alter (zt_upd (upd_ctr dec16)) t ts) (ACheck t :: A).
Proof.
  intros B Hlt Hx. assert (T ≤ t) as HT.
  { destruct (decide (T ≤ t)); [done|]. destruct (bi_old _ _ _ B (ASub t)) as (? & ? & ? & _); [left|cbn; lia|done]. }
  assert (∀ u z, alter (zt_upd (upd_ctr dec16)) t ts !! u = Some z → u = t ∧ z = zt_upd (upd_ctr dec16) x ∨ u ≠ t ∧ ts !! u = Some z) as Hn.
  { intros u z Hz. destruct (decide (u = t)) as [->|Hne]; [|right; by rewrite list_lookup_alter_ne in Hz]. left. rewrite list_lookup_alter, Hx in Hz. cbn in Hz. by injection Hz as <-. }
  pose proof (bi_sum _ _ _ B) as Hsum. cbn [cnt pend] in Hsum. rewrite decide_True in Hsum by done.
  split.
  - rewrite alter_length. apply B.
  - intros a [->|Ha]%elem_of_cons Hlt'; [cbn in Hlt'; lia|]. destruct (bi_old _ _ _ B a) as (u & z & -> & Hz & Hpa); [by right|done|]. cbn in Hlt'. exists u, z. rewrite list_lookup_alter_ne by lia. done.
  - intros a Ha. rewrite alter_length. apply elem_of_cons in Ha as [->|Ha]; [by eapply lookup_lt_Some|]. apply (bi_lt _ _ _ B). by right.
  - rewrite alter_length. cbn [cnt pend]. destruct (decide (T < t)); lia.
  - intros z Hz. cbn [cnt pend]. apply Hn in Hz as [[<- ->]|[Hne Hz]].
    + destruct (bi_parent _ _ _ B x Hx) as [H1 H2]. split; [done|]. cbn [zt_upd upd_ctr zt_task t_ctr]. rewrite H2. cbn [cnt pend]. rewrite decide_True by done. rewrite decide_False by lia. cbn [Nat.add].
      unfold dec16, ctr_mod. replace (N.of_nat (S (cnt (pend T) A)) + (2 ^ 16 - 1))%N with (N.of_nat (cnt (pend T) A) + 1 * 2 ^ 16)%N by lia. rewrite N.mod_add by done. apply N.mod_small. lia.
    + destruct (bi_parent _ _ _ B z Hz) as [H1 H2]. split; [done|]. rewrite H2. cbn [cnt pend]. rewrite !decide_True by lia. done.
  - intros u z Hu Hz. apply Hn in Hz as [[-> ->]|[Hne Hz]].
    + destruct (bi_child _ _ _ B t x Hu Hx) as (H1 & H2 & H3). split; [done|]. split; [done|]. cbn [cnt own live act_id] in *. rewrite !decide_True in * by done.
      assert (cnt (live t) A = 0) as Hl by (apply own_live_zero; lia). cbn [zt_upd upd_ctr zt_task t_ctr]. rewrite H3, Hl. done.
    + destruct (bi_child _ _ _ B u z Hu Hz) as (H1 & H2 & H3). split; [done|]. cbn [cnt own live act_id] in *. rewrite !decide_False in * by done. done.
  - intros u z Hu Hz. apply Hn in Hz as [[-> ->]|[Hne Hz]].
    + apply (bi_done _ _ _ B t x Hu Hx).
    + apply (bi_done _ _ _ B u z Hu Hz).
Qed.

Lemma binv_check T ts A t x : binv T ts (ACheck t :: A) → ts !! t = Some x →
  binv T ts (cur_acts (if bool_decide (t_ctr (zt_task x) = 0%N) then ZSub <$> t_parent (zt_task x) else None) ++ A).
Proof.
  intros B Hx. destruct (decide (T < t)) as [HT|HT].
  - destruct (bi_child _ _ _ B t x HT Hx) as (H1 & H2 & H3). cbn [cnt own live act_id] in H2, H3. rewrite decide_True in H2 by done.
    assert (cnt (live t) A = 0) as Hl by (apply own_live_zero; lia). rewrite Hl in H3. rewrite bool_decide_true by done. rewrite H1. cbn [fmap option_fmap option_map cur_acts app].
    pose proof (lookup_lt_Some _ _ _ Hx) as Hlt. split.
    + apply B.
    + intros a [->|Ha]%elem_of_cons Hlt'; [cbn in Hlt'; lia|]. apply (bi_old _ _ _ B); [by right|done].
    + intros a [->|Ha]%elem_of_cons; [cbn; lia|]. apply (bi_lt _ _ _ B). by right.
    + pose proof (bi_sum _ _ _ B) as Hs. cbn [cnt pend] in *. rewrite !decide_True in * by lia. done.
    + intros z Hz. destruct (bi_parent _ _ _ B z Hz) as [P1 P2]. split; [done|]. rewrite P2. cbn [cnt pend]. by rewrite !decide_True by lia.
    + intros u z Hu Hz. destruct (bi_child _ _ _ B u z Hu Hz) as (C1 & C2 & C3). split; [done|]. cbn [cnt own live act_id] in *. rewrite !decide_False by lia. split; [|done]. destruct (decide (t = u)); lia.
    + intros u z Hu Hz. apply (bi_done _ _ _ B u z Hu Hz).
  - assert (t_parent (zt_task x) = None) as Hp.
    { destruct (decide (t = T)) as [->|Hne]; [by apply (bi_parent _ _ _ B)|]. destruct (bi_old _ _ _ B (ACheck t)) as (u & z & [= <-] & Hz & Hp); [left|cbn; lia|]. congruence. }
    rewrite Hp. assert ((if bool_decide (t_ctr (zt_task x) = 0%N) then ZSub <$> None else None) = None) as -> by (by destruct (bool_decide _)). cbn [cur_acts app]. split.
    + apply B.
    + intros a Ha. apply (bi_old _ _ _ B). by right.
    + intros a Ha. apply (bi_lt _ _ _ B). by right.
    + pose proof (bi_sum _ _ _ B) as Hs. cbn [cnt pend] in Hs. rewrite decide_False in Hs by done. done.
    + intros z Hz. destruct (bi_parent _ _ _ B z Hz) as [P1 P2]. split; [done|]. rewrite P2. cbn [cnt pend]. by rewrite decide_False by done.
    + intros u z Hu Hz. destruct (bi_child _ _ _ B u z Hu Hz) as (C1 & C2 & C3). split; [done|]. cbn [cnt own live act_id] in *. rewrite decide_False in C2 by lia. done.
    + intros u z Hu Hz. apply (bi_done _ _ _ B u z Hu Hz).
Qed.

(** * Events *)
Definition ran (y : sysrun) : zevent := ERan (y_id y).
Definition remaining (T : nat) (ts : list ztask) : list zevent :=
  (λ x, ran (zt_sys x)) <$> filter (λ x, t_done (zt_task x) = false) (drop T ts).

Lemma remaining_app T ts y par c : T ≤ length ts → remaining T (ts ++ [ZTask (Task par c false) y]) = remaining T ts ++ [ran y].
Proof. intros H. unfold remaining. rewrite drop_app_le by done. rewrite filter_app, fmap_app. done. Qed.
Lemma remaining_upd T ts t f : remaining T (alter (zt_upd (upd_ctr f)) t ts) = remaining T ts.
Proof.
  unfold remaining. revert T t. induction ts as [|x ts IH]; intros T t; [done|].
  destruct T as [|T].
  - rewrite !drop_0 in *. destruct t as [|t]; cbn [alter list_alter].
    + rewrite !filter_cons. cbn [zt_upd upd_ctr zt_task t_done zt_sys]. by destruct (decide _).
    + rewrite !filter_cons. specialize (IH 0 t). rewrite !drop_0 in IH. destruct (decide _); cbn; [f_equal|]; apply IH.
  - destruct t as [|t]; cbn [alter list_alter skipn]; [done|]. apply IH.
Qed.
Lemma remaining_run T ts t x : T ≤ t → ts !! t = Some x → t_done (zt_task x) = false → remaining T ts ≡ₚ ran (zt_sys x) :: remaining T (alter (zt_upd set_done) t ts).
Proof.
  unfold remaining. revert T t. induction ts as [|z ts IH]; intros T t HT Hx Hd; [done|].
  destruct T as [|T].
  - rewrite !drop_0 in *. destruct t as [|t]; cbn [alter list_alter].
    + injection Hx as ->. rewrite !filter_cons. rewrite decide_True by done. rewrite decide_False by done. done.
    + rewrite !filter_cons. specialize (IH 0 t ltac:(lia) Hx Hd). rewrite !drop_0 in IH. destruct (decide _); cbn [fmap list_fmap]; [|done]. rewrite IH. apply Permutation_swap.
  - destruct t as [|t]; [lia|]. cbn [alter list_alter skipn]. apply IH; [lia|done|done].
Qed.
Lemma remaining_none T ts : (∀ t x, T ≤ t → ts !! t = Some x → t_done (zt_task x) = true) → remaining T ts = [].
Proof.
  intros H. unfold remaining. assert (filter (λ x, t_done (zt_task x) = false) (drop T ts) = []) as ->; [|done].
  assert (∀ x, x ∈ filter (λ x, t_done (zt_task x) = false) (drop T ts) → False) as Hn.
  { intros x [Hd Hx]%elem_of_list_filter. apply elem_of_list_lookup in Hx as [i Hx]. rewrite lookup_drop in Hx. by rewrite (H (T + i) x ltac:(lia) Hx) in Hd. }
  destruct (filter _ _) as [|x l]; [done|]. exfalso. apply (Hn x). left.
Qed.

(** * The invariant *)
Definition rest_code (bs : list batchrun) (p2 : list mact) : list zseg := (ZBatch <$> bs) ++ ZFlush :: ZTry :: (ZAct <$> p2).
Definition calm_sys (y : sysrun) : Prop := y_throws y = false.
Definition parent_of (T : nat) (ts : list ztask) : option nat := if decide (T = length ts) then None else Some T.

Inductive place (p : list mact) (T : nat) (ts : list ztask) : list zseg → list zevent → Prop :=
| PlIdle p1 p2 E : p = p1 ++ p2 → perm_prog p1 E → T = length ts → place p T ts (ZAct <$> p2) E
| PlBetween p1 bs0 bs p2 E ess : p = p1 ++ MRun (bs0 ++ bs) :: p2 → perm_prog p1 E → Forall2 perm_batch bs0 ess → T = length ts →
    place p T ts (rest_code bs p2) (E ++ concat ess)
| PlTry p1 bs p2 E ess : p = p1 ++ MRun bs :: p2 → perm_prog p1 E → Forall2 perm_batch bs ess → T = length ts →
    place p T ts (ZTry :: (ZAct <$> p2)) (E ++ concat ess ++ [EFlush])
| PlInside p1 bs0 b bs p2 E ess F ys ms seg : p = p1 ++ MRun (bs0 ++ b :: bs) :: p2 → perm_prog p1 E → Forall2 perm_batch bs0 ess →
    (seg = ZSubmit ys ms (parent_of T ts) ∨ ys = [] ∧ seg = ZMain ms (parent_of T ts) ∨ ys = [] ∧ ms = [] ∧ seg = ZWait (parent_of T ts)) →
    length ts - T + length ys = length (b_systems b) → Forall calm_sys ys → Forall calm_sys ms →
    F ++ remaining T ts ++ (ran <$> ys) ++ (ran <$> ms) ≡ₚ ran <$> (b_systems b ++ b_main b) →
    place p T ts (seg :: rest_code bs p2) (E ++ concat ess ++ F).

Record cinv (p : list mact) (s : zpool) : Prop := CInv {
  ci_end : z_end s = None;
  ci_main : is_Some (z_workers s !! 0);
  ci_calm : Forall (λ x, calm_sys (zt_sys x)) (z_tasks s);
  ci_T : ∃ T, z_dead s ≤ T ∧ binv T (z_tasks s) (acts (z_workers s)) ∧ place p T (z_tasks s) (z_code s) (z_events s) }.

Lemma acts_none n : acts (replicate n (ZWorker [] None)) = [].
Proof. unfold acts. by induction n. Qed.
Lemma cinv_init n p : 1 ≤ n → cinv p (z_start n p).
Proof.
  intros Hn. split; [done| |constructor|].
  - cbn. destruct n; [lia|]. by eexists.
  - exists 0. cbn [z_start z_dead z_tasks z_workers z_code z_events]. rewrite acts_none. split; [done|]. split; [apply binv_init|]. apply (PlIdle _ _ _ [] p); [done| |done]. by exists [].
Qed.

Lemma perm_prog_snoc p1 E a e : perm_prog p1 E → perm_act a e → perm_prog (p1 ++ [a]) (E ++ e).
Proof.
  intros (ess & H1 & ->) H2. exists (ess ++ [e]). split; [by apply Forall2_app; [|constructor]|]. rewrite concat_app. cbn. by rewrite app_nil_r.
Qed.

(** The place does not depend on counters. *)
Lemma place_ext p T ts ts' l E : place p T ts l E → length ts' = length ts → remaining T ts' = remaining T ts → place p T ts' l E.
Proof.
  intros H Hl Hr. assert (parent_of T ts' = parent_of T ts) as Hp by (unfold parent_of; by rewrite Hl).
  destruct H as [p1 p2 E H1 H2 H3|p1 bs0 bs p2 E ess H1 H2 H3 H4|p1 bs p2 E ess H1 H2 H3 H4|p1 bs0 b bs p2 E ess F ys ms seg H1 H2 H3 H4 H5 H6 H7 H8].
  - eapply PlIdle; [done|done|congruence].
  - eapply PlBetween; [done|done|done|congruence].
  - eapply PlTry; [done|done|done|congruence].
  - eapply PlInside; [done|done|done| |by rewrite Hl|done|done|by rewrite Hr]. by rewrite Hp.
Qed.
Lemma place_run p T ts l E t x : place p T ts l E → T ≤ t → ts !! t = Some x → t_done (zt_task x) = false →
  place p T (alter (zt_upd set_done) t ts) l (E ++ [ran (zt_sys x)]).
Proof.
  intros H Ht Hx Hd. pose proof (lookup_lt_Some _ _ _ Hx) as Hlt.
  destruct H as [p1 p2 E H1 H2 H3|p1 bs0 bs p2 E ess H1 H2 H3 H4|p1 bs p2 E ess H1 H2 H3 H4|p1 bs0 b bs p2 E ess F ys ms seg H1 H2 H3 H4 H5 H6 H7 H8]; [lia..|].
  rewrite <- !app_assoc. eapply PlInside; [done|done|done| |by rewrite alter_length|done|done|].
  - assert (parent_of T (alter (zt_upd set_done) t ts) = parent_of T ts) as -> by (unfold parent_of; by rewrite alter_length). exact H4.
  - rewrite (remaining_run _ _ _ _ Ht Hx Hd) in H8. rewrite <- H8. rewrite <- !app_assoc. done.
Qed.

Lemma run_le_pend T t A : T ≤ t → cnt (isrun t) A ≤ cnt (pend T) A.
Proof. intros H. induction A as [|a A IH]; [done|]. cbn. assert (isrun t a ≤ pend T a); [|lia]. destruct a as [u|u|u]; cbn; [|lia|lia]. destruct (decide (u = t)); [rewrite decide_True by lia; lia|lia]. Qed.

Lemma place_len p T ts l E : Forall act_ok p → place p T ts l E → (N.of_nat (length ts - T) < 65536)%N.
Proof.
  intros Hok H. destruct H as [p1 p2 E H1 H2 H3|p1 bs0 bs p2 E ess H1 H2 H3 H4|p1 bs p2 E ess H1 H2 H3 H4|p1 bs0 b bs p2 E ess F ys ms seg H1 H2 H3 H4 H5 H6 H7 H8]; [lia..|].
  subst p. apply Forall_app in Hok as [_ Hok]. apply Forall_cons in Hok as [Hok _]. cbn in Hok. apply Forall_app in Hok as [_ Hok]. apply Forall_cons in Hok as [Hok _]. lia.
Qed.

Lemma cinv_worker p s w v x s' : Forall act_ok p → cinv p s → z_workers s !! w = Some x → zw_cur x ≠ None → z_step w v s = Some s' → cinv p s'.
Proof.
  intros Hok [He Hm Hc (T & HT & B & P)] Hx Hcur H. unfold z_step in H. rewrite He, Hx in H. cbn [mbind option_bind] in H.
  assert (∀ f, is_Some (alter f w (z_workers s) !! 0)) as Hm'. { intros f. apply lookup_lt_is_Some. rewrite alter_length. by apply lookup_lt_is_Some. }
  destruct (zw_cur x) as [[t|t|t]|] eqn:Hcu; [| | |done].
  - destruct (z_tasks s !! t) as [y|] eqn:Hy; [|done]. cbn [mbind option_bind] in H. destruct (acts_cur _ _ _ (ARun t) Hx ltac:(by rewrite Hcu)) as (R & E1 & E2).
    apply (binv_perm _ _ _ _ E1) in B. destruct (binv_run _ _ _ _ _ B Hy) as (Ht & Hd & B'). rewrite decide_False in H by lia.
    pose proof (proj1 (Forall_lookup _ _) Hc _ _ Hy) as Hcy. cbn in Hcy. rewrite Hcy in H. injection H as <-. split; cbn [z_log z_upd z_set_workers z_set_tasks z_end z_workers z_tasks z_dead z_code z_events].
    + done.
    + apply Hm'.
    + apply Forall_lookup_2. intros u z Hz. destruct (decide (u = t)) as [->|Hne].
      * rewrite list_lookup_alter, Hy in Hz. injection Hz as <-. done.
      * rewrite list_lookup_alter_ne in Hz by done. exact (proj1 (Forall_lookup _ _) Hc _ _ Hz).
    + exists T. split; [done|]. split; [|by apply place_run]. eapply binv_perm; [|exact B']. symmetry. apply (E2 (Some (ZSub t))).
  - injection H as <-. destruct (acts_cur _ _ _ (ASub t) Hx ltac:(by rewrite Hcu)) as (R & E1 & E2).
    apply (binv_perm _ _ _ _ E1) in B. destruct (lookup_lt_is_Some_2 (z_tasks s) t) as [y Hy]. { apply (bi_lt _ _ _ B (ASub t)). left. }
    split; cbn [z_log z_upd z_set_workers z_set_tasks z_end z_workers z_tasks z_dead z_code z_events].
    + done.
    + apply Hm'.
    + apply Forall_lookup_2. intros u z Hz. destruct (decide (u = t)) as [->|Hne].
      * rewrite list_lookup_alter, Hy in Hz. injection Hz as <-. exact (proj1 (Forall_lookup _ _) Hc _ _ Hy).
      * rewrite list_lookup_alter_ne in Hz by done. exact (proj1 (Forall_lookup _ _) Hc _ _ Hz).
    + exists T. split; [done|]. split; [|eapply place_ext; [done|apply alter_length|apply remaining_upd]].
      eapply binv_perm; [|eapply (binv_sub _ _ _ _ _ B); [by eapply place_len|done]]. symmetry. apply (E2 (Some (ZCheck t))).
  - destruct (z_tasks s !! t) as [y|] eqn:Hy; [|done]. cbn [mbind option_bind] in H. injection H as <-. destruct (acts_cur _ _ _ (ACheck t) Hx ltac:(by rewrite Hcu)) as (R & E1 & E2).
    apply (binv_perm _ _ _ _ E1) in B. split; cbn [z_log z_upd z_set_workers z_set_tasks z_end z_workers z_tasks z_dead z_code z_events]; [done|apply Hm'|done|].
    exists T. split; [done|]. split; [|done]. eapply binv_perm; [|apply (binv_check _ _ _ _ _ B Hy)]. symmetry. apply E2.
Qed.

Lemma cinv_get p w v s s' x : cinv p s → z_workers s !! w = Some x → zw_cur x = None → z_get_task w v s = Some s' → cinv p s'.
Proof.
  intros [He Hm Hc (T & HT & B & P)] Hx Hcur H. pose proof H as H'. unfold z_get_task in H'. destruct (get_task_acts _ _ _ _ _ Hx Hcur H) as (E1 & E2 & E3 & E4 & E5 & E6).
  split; [congruence| |by rewrite E2|].
  - apply lookup_lt_is_Some. assert (length (z_workers s') = length (z_workers s)) as ->; [|by apply lookup_lt_is_Some].
    rewrite Hx in H'. cbn in H'. destruct (last _); [injection H' as <-; cbn; by rewrite !alter_length|].
    destruct v as [j|]; [|by injection H' as <-]. destruct (decide _); [done|]. destruct (z_workers s !! j) as [y|]; [|done]. cbn in H'.
    destruct (zw_queue y); injection H' as <-; [done|]. cbn. by rewrite !alter_length.
  - exists T. rewrite E4, E2, E3, E5. split; [done|]. split; [|done]. eapply binv_perm; [|exact B]. by rewrite E1.
Qed.

Lemma parent_none T ts : T ≤ length ts → parent_of T ts = None → T = length ts.
Proof. unfold parent_of. by destruct (decide _). Qed.
Lemma parent_some T ts u : T ≤ length ts → parent_of T ts = Some u → u = T ∧ T < length ts.
Proof. unfold parent_of. destruct (decide _); intros ?; [done|]. intros [= <-]. lia. Qed.
Lemma forall_calm p p1 bs0 b bs p2 : Forall calm_act p → p = p1 ++ MRun (bs0 ++ b :: bs) :: p2 → Forall calm_sys (b_systems b) ∧ Forall calm_sys (b_main b).
Proof.
  intros Hok ->. apply Forall_app in Hok as [_ Hok]. apply Forall_cons in Hok as [Hok _]. cbn in Hok. apply Forall_app in Hok as [_ Hok]. apply Forall_cons in Hok as [Hok _].
  by apply Forall_app in Hok.
Qed.

Lemma cinv_mainstep p v s s' x : Forall act_ok p → Forall calm_act p → cinv p s → z_workers s !! 0 = Some x → zw_cur x = None → z_main v s = Some s' → cinv p s'.
Proof.
  intros Hok Hca I Hx Hcur H. pose proof I as [He Hm Hc (T & HT & B & P)].
  assert (∃ l E, z_code s = l ∧ z_events s = E) as (l & E0 & El & Ee) by eauto. rewrite El, Ee in P. pose proof (bi_le _ _ _ B) as Hle.
  destruct P as [p1 p2 E H1 H2 H3|p1 bs0 bs p2 E ess H1 H2 H3 H4|p1 bs p2 E ess H1 H2 H3 H4|p1 bs0 b bs p2 E ess F ys ms seg H1 H2 H3 H4 H5 H6 H7 H8]; unfold z_main in H; rewrite El in H.
  - destruct p2 as [|[bs|] p2]; cbn [fmap list_fmap] in H; [done| |].
    + injection H as <-. split; [done|done|done|]. exists T. split; [done|]. split; [done|]. cbn [z_set_code z_code z_tasks z_events]. rewrite Ee.
      replace E with (E ++ concat (@nil (list zevent))) by (by rewrite app_nil_r). by apply (PlBetween _ _ _ p1 [] bs p2).
    + injection H as <-. split; [done|done|done|]. exists T. cbn [z_set_code z_set_dead z_code z_tasks z_events z_dead z_workers]. rewrite Ee. split; [lia|]. split; [done|].
      apply (PlIdle _ _ _ (p1 ++ [MDestroy]) p2); [by rewrite <- app_assoc| |done]. rewrite <- (app_nil_r E). by apply perm_prog_snoc.
  - destruct bs as [|b bs]; unfold rest_code in H; cbn [fmap list_fmap app] in H; injection H as <-.
    + split; [done|done|done|]. exists T. split; [done|]. split; [done|]. cbn [z_log z_set_code z_code z_tasks z_events]. rewrite Ee, <- app_assoc. rewrite app_nil_r in H1. by eapply PlTry.
    + split; [done|done|done|]. exists T. split; [done|]. split; [done|]. cbn [z_set_code z_code z_tasks z_events]. rewrite Ee.
      destruct (forall_calm _ _ _ _ _ _ Hca H1) as [Hc1 Hc2]. rewrite <- (app_nil_r (concat ess)). eapply (PlInside _ _ _ p1 bs0 b bs p2 E ess [] (b_systems b) (b_main b)); [done|done|done|left| |done|done|].
      * unfold parent_of. by rewrite decide_True.
      * lia.
      * unfold remaining. rewrite drop_ge by lia. cbn. by rewrite fmap_app.
  - injection H as <-. split; [done|done|done|]. exists T. split; [done|]. split; [done|]. cbn [z_log z_set_code z_code z_tasks z_events]. rewrite Ee.
    apply (PlIdle _ _ _ (p1 ++ [MRun bs]) p2); [by rewrite <- app_assoc| |done]. rewrite <- !app_assoc. apply perm_prog_snoc; [done|]. cbn. by exists ess.
  - destruct H4 as [->|[[-> ->]|(-> & -> & ->)]].
    + destruct ys as [|y ys]; injection H as <-.
      * split; [done|done|done|]. exists T. split; [done|]. split; [done|]. cbn [z_set_code z_code z_tasks z_events]. rewrite Ee. eapply (PlInside _ _ _ p1 bs0 b bs p2 E ess F [] ms); try done. by right; left.
      * apply Forall_cons in H6 as [Hy Hys].
        assert (cinv p (z_set_code (ZSubmit ys ms (Some T) :: rest_code bs p2) (z_submit y (parent_of T (z_tasks s)) s))) as G.
        { unfold z_submit. set (ts' := match parent_of T (z_tasks s) with Some q => _ | None => _ end ++ _). split; cbn [z_set_code z_log z_upd z_set_workers z_set_tasks z_end z_workers z_tasks z_dead z_code z_events].
          - done.
          - apply lookup_lt_is_Some. rewrite alter_length. by apply lookup_lt_is_Some.
          - subst ts'. apply Forall_app. split; [|by constructor]. destruct (parent_of T (z_tasks s)) as [u|]; [|done]. apply Forall_lookup_2. intros i z Hz. destruct (decide (i = u)) as [->|Hne].
            + rewrite list_lookup_alter in Hz. destruct (z_tasks s !! u) as [z0|] eqn:Hz0; [|done]. injection Hz as <-. exact (proj1 (Forall_lookup _ _) Hc _ _ Hz0).
            + rewrite list_lookup_alter_ne in Hz by done. exact (proj1 (Forall_lookup _ _) Hc _ _ Hz).
          - exists T. split; [done|].
            assert ((N.of_nat (S (length (z_tasks s) - T)) < 65536)%N) as Hlt.
            { subst p. apply Forall_app in Hok as [_ Hok]. apply Forall_cons in Hok as [Hok _]. cbn in Hok. apply Forall_app in Hok as [_ Hok]. apply Forall_cons in Hok as [Hok _]. cbn in Hok, H5. lia. }
            assert (length ts' = S (length (z_tasks s))) as Hl'. { subst ts'. rewrite app_length. cbn. destruct (parent_of _ _); rewrite ?alter_length; lia. }
            split.
            + eapply binv_perm; [symmetry; by apply acts_submit|]. subst ts'. destruct (parent_of T (z_tasks s)) as [u|] eqn:Hpa.
              * apply parent_some in Hpa as [-> Hlt']; [|done]. by apply binv_more.
              * apply parent_none in Hpa as ->; [|done]. by apply binv_first.
            + rewrite Ee. eapply (PlInside _ _ _ p1 bs0 b bs p2 E ess F ys ms); [done|done|done| | |done|done|].
              * left. unfold parent_of. rewrite decide_False by lia. done.
              * cbn in H5. lia.
              * rewrite <- H8. apply Permutation_app_head. assert (remaining T ts' = remaining T (z_tasks s) ++ [ran y]) as ->.
                { subst ts'. destruct (parent_of T (z_tasks s)); rewrite remaining_app by (rewrite ?alter_length; lia); by rewrite ?remaining_upd. }
                cbn [fmap list_fmap]. by rewrite <- !app_assoc. }
        assert (default (length (z_tasks s)) (parent_of T (z_tasks s)) = T) as ->; [|done]. unfold parent_of. destruct (decide _); [by subst|done].
    + destruct ms as [|y ms].
      * injection H as <-. split; [done|done|done|]. exists T. split; [done|]. split; [done|]. cbn [z_set_code z_code z_tasks z_events]. rewrite Ee. eapply (PlInside _ _ _ p1 bs0 b bs p2 E ess F [] []); try done. by right; right.
      * apply Forall_cons in H7 as [Hy Hms]. rewrite Hy in H. injection H as <-. split; [done|done|done|]. exists T. split; [done|]. split; [done|]. cbn [z_log z_set_code z_code z_tasks z_events]. rewrite Ee.
        rewrite <- !app_assoc. eapply (PlInside _ _ _ p1 bs0 b bs p2 E ess (F ++ [ran y]) [] ms); [done|done|done|by right; left|done|done|done|].
        rewrite <- H8. rewrite <- !app_assoc. apply Permutation_app_head. cbn. rewrite <- Permutation_middle. done.
    + destruct (parent_of T (z_tasks s)) as [u|] eqn:Hpa.
      * apply parent_some in Hpa as [-> Hlt]; [|done]. destruct (z_tasks s !! T) as [z|] eqn:Hz; [|done]. cbn [mbind option_bind] in H. destruct (bi_parent _ _ _ B z Hz) as [Hp1 Hp2].
        destruct (bool_decide (t_ctr (zt_task z) = 0%N)) eqn:Hb; [|by eapply cinv_get]. apply bool_decide_eq_true in Hb.
        assert (cnt (pend T) (acts (z_workers s)) = 0) as H0 by lia. injection H as <-. split; [done|done|done|]. exists (length (z_tasks s)). split; [cbn; lia|]. split; [by eapply binv_end|].
        assert (remaining T (z_tasks s) = []) as Hrem.
        { apply remaining_none. intros t x0 Ht Hx0. pose proof (bi_done _ _ _ B t x0 Ht Hx0) as Hd. pose proof (run_le_pend T t (acts (z_workers s)) Ht). destruct (t_done (zt_task x0)); [done|lia]. }
        rewrite Hrem in H8. cbn in H8. rewrite !app_nil_r in H8. cbn [z_set_code z_code z_tasks z_events]. rewrite Ee.
        replace (concat ess ++ F) with (concat (ess ++ [F])) by (rewrite concat_app; cbn; by rewrite app_nil_r).
        apply (PlBetween _ _ _ p1 (bs0 ++ [b]) bs p2); [by rewrite <- app_assoc|done|apply Forall2_app; [done|by constructor]|done].
      * apply parent_none in Hpa; [|done]. injection H as <-. split; [done|done|done|]. exists T. split; [done|]. split; [done|].
        assert (remaining T (z_tasks s) = []) as Hrem by (unfold remaining; by rewrite drop_ge by lia).
        rewrite Hrem in H8. cbn in H8. rewrite !app_nil_r in H8. cbn [z_set_code z_code z_tasks z_events]. rewrite Ee.
        replace (concat ess ++ F) with (concat (ess ++ [F])) by (rewrite concat_app; cbn; by rewrite app_nil_r).
        apply (PlBetween _ _ _ p1 (bs0 ++ [b]) bs p2); [by rewrite <- app_assoc|done|apply Forall2_app; [done|by constructor]|done].
Qed.

Lemma cinv_reach n p s : 1 ≤ n → Forall act_ok p → Forall calm_act p → z_reach n p s → cinv p s.
Proof.
  intros Hn Hok Hca Hr. induction Hr as [|s w v s' Hr IH Hs]; [by apply cinv_init|].
  pose proof Hs as H. unfold z_step in H. destruct (z_end s) eqn:He; [done|]. destruct (z_workers s !! w) as [x|] eqn:Hx; [|done]. cbn in H.
  destruct (zw_cur x) as [c|] eqn:Hc; [eapply cinv_worker; [done|done|done| |done]; by rewrite Hc|].
  destruct w as [|w]; [by eapply cinv_mainstep|by eapply cinv_get].
Qed.

(** Between two calls of run_once nothing is queued or running. *)
Lemma calm_between n p s k : 1 ≤ n → Forall act_ok p → Forall calm_act p → z_reach n p s →
  z_end s = None ∧
  (k ≤ length p → z_code s = ZAct <$> drop k p →
   perm_prog (take k p) (z_events s) ∧ ∀ x t, x ∈ z_workers s → t ∉ zw_queue x ∧ zw_cur x ≠ Some (ZRun t)).
Proof.
  intros Hn Hok Hca Hr. pose proof (cinv_reach _ _ _ Hn Hok Hca Hr) as [He Hm Hc (T & HT & B & P)]. split; [done|]. intros Hk Hcode.
  assert (perm_prog (take k p) (z_events s) ∧ T = length (z_tasks s)) as [Hp HTl].
  { destruct P as [p1 p2 E H1 H2 H3|p1 bs0 bs p2 E ess H1 H2 H3 H4|p1 bs p2 E ess H1 H2 H3 H4|p1 bs0 b bs p2 E ess F ys ms seg H1 H2 H3 H4 H5 H6 H7 H8].
    - split; [|done]. assert (Inj (=) (=) ZAct) as Hinj by (by intros ?? [= ->]). apply (inj (fmap ZAct)) in Hcode. subst p2.
      rewrite <- (take_drop k p) in H1 at 1. apply app_inv_tail in H1. by rewrite H1.
    - destruct bs; unfold rest_code in Hcode; cbn in Hcode; by destruct (drop k p).
    - by destruct (drop k p).
    - destruct H4 as [->|[[-> ->]|(-> & -> & ->)]]; by destruct (drop k p). }
  split; [done|]. intros x t Hx. apply elem_of_list_lookup in Hx as [w Hw]. destruct (acts_at _ _ _ Hw) as (R & E1 & _).
  assert (∀ t, ARun t ∈ acts (z_workers s) → False) as Hno.
  { intros u Hu. pose proof (bi_lt _ _ _ B _ Hu) as Hl. cbn in Hl. destruct (bi_old _ _ _ B _ Hu) as (? & ? & ? & _); [cbn; lia|done]. }
  split.
  - intros Ht. apply (Hno t). rewrite E1. unfold w_acts. apply elem_of_app. left. apply elem_of_app. left. by apply elem_of_list_fmap_1.
  - intros Hc'. apply (Hno t). rewrite E1. unfold w_acts. rewrite Hc'. apply elem_of_app. left. apply elem_of_app. right. cbn. left.
Qed.
