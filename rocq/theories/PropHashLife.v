(** C65: lifetimes of the elements of hash maps.  C66: copies and moves of hash maps. *)
From Verif Require Import Base Bits HashTable HashTableProofs HashTableMap HashLife HashLifeProofs PropHash.
Ltac Zify.zify_post_hook ::= Z.div_mod_to_equations.

(** What a program does with several hash maps, which are numbered in order of their construction. *)
Inductive hw_op (K V : Type) :=
| HwNew
| HwOn (i : nat) (o : hm_op K V)
| HwCopy (i : nat)
| HwMove (i : nat)
| HwCopyAssign (i j : nat)
| HwMoveAssign (i j : nat)
| HwDestroy (i : nat).
Arguments HwNew {K V}.
Arguments HwOn {K V} _ _.
Arguments HwCopy {K V} _.
Arguments HwMove {K V} _.
Arguments HwCopyAssign {K V} _ _.
Arguments HwMoveAssign {K V} _ _.
Arguments HwDestroy {K V} _.

Section run.
Context {K V : Type} `{Countable K}.
Variable hsh : K → N.
Variable dflt : V.

(** One call on a table with its objects, as [hm_step]. *)
Definition lm_step (t : ltab K V) (o : hm_op K V) : option (ltab K V * hm_out K V) :=
  match o with
  | HmEmplace k v => r ← lt_insert hsh false t k v; w ← lt_deref r.1 r.2.1; Some (r.1, HmPair w r.2.2)
  | HmInsertOrAssign k v => r ← lt_insert hsh true t k v; w ← lt_deref r.1 r.2.1; Some (r.1, HmPair w r.2.2)
  | HmIndex k => r ← lt_index hsh dflt t k; w ← lt_deref r.1 r.2; Some (r.1, HmVal (Some w))
  | HmAssign k v => r ← lt_index hsh dflt t k; t' ← lt_store r.1 r.2 v; Some (t', HmUnit)
  | HmAt k =>
      f ← lt_find hsh t k;
      match f with Some i => v ← lt_deref t i; Some (t, HmVal (Some v)) | None => Some (t, HmVal None) end
  | HmContains k => f ← lt_find hsh t k; Some (t, HmBool (bool_decide (is_Some f)))
  | HmErase k => t' ← lt_erase hsh t k; Some (t', HmUnit)
  | HmClear => t' ← lt_clear t; Some (t', HmUnit)
  | HmReserve n => t' ← lt_reserve hsh t n; Some (t', HmUnit)
  | HmSize => Some (t, HmNum (ht_size (lt_tab t)))
  | HmIterate => Some (t, HmList (ht_iter (lt_tab t)))
  end.

Definition lw_step (w : lworld K V) (o : hw_op K V) : option (lworld K V * hm_out K V) :=
  match o with
  | HwNew => Some (lw_new w, HmUnit)
  | HwOn i o => t ← lw_get w i; r ← lm_step t o; Some (lw_set w i r.1, r.2)
  | HwCopy i => w' ← lw_copy w i; Some (w', HmUnit)
  | HwMove i => w' ← lw_move w i; Some (w', HmUnit)
  | HwCopyAssign i j => w' ← lw_copy_assign w i j; Some (w', HmUnit)
  | HwMoveAssign i j => w' ← lw_move_assign w i j; Some (w', HmUnit)
  | HwDestroy i => w' ← lw_destroy w i; Some (w', HmUnit)
  end.
Fixpoint lw_run (w : lworld K V) (os : list (hw_op K V)) : option (lworld K V * list (hm_out K V)) :=
  match os with
  | [] => Some (w, [])
  | o :: os => r ← lw_step w o; q ← lw_run r.1 os; Some (q.1, r.2 :: q.2)
  end.
(** The program ends: the remaining tables are destroyed.  The result counts the objects never destroyed. *)
Fixpoint tabs_end (ts : list (option (ltab K V))) : option nat :=
  match ts with
  | [] => Some 0
  | None :: ts => tabs_end ts
  | Some t :: ts => m ← lt_destruct t; n ← tabs_end ts; Some (m + n)
  end.
Definition lw_end (w : lworld K V) : option nat := n ← tabs_end (lw_tabs w); Some (lw_gone w + n).

(** Specification: finite maps.  [None]: the operation names a map that does not exist or was destroyed. *)
Notation sworld := (list (option (gmap K V))).
Definition sp_get (s : sworld) (i : nat) : option (gmap K V) := o ← s !! i; o.
Definition sp_step (s : sworld) (o : hw_op K V) : option sworld :=
  match o with
  | HwNew => Some (s ++ [Some ∅])
  | HwOn i o => m ← sp_get s i; Some (<[i := Some (hmap_after dflt m o)]> s)
  | HwCopy i => m ← sp_get s i; Some (s ++ [Some m])
  | HwMove i => m ← sp_get s i; Some (<[i := Some ∅]> s ++ [Some m])
  | HwCopyAssign i j => _ ← sp_get s i; m ← sp_get s j; Some (<[i := Some m]> s)
  | HwMoveAssign i j => a ← sp_get s i; b ← sp_get s j; Some (<[j := Some a]> (<[i := Some b]> s))
  | HwDestroy i => _ ← sp_get s i; Some (<[i := None]> s)
  end.
Definition sp_answer (s : sworld) (o : hw_op K V) (a : hm_out K V) : Prop :=
  match o with
  | HwOn i o => match sp_get s i with Some m => hmap_answer dflt m o a | None => False end
  | _ => a = HmUnit
  end.
(** 1 if the operation is a call of erase that finds its key. *)
Definition sp_erased (s : sworld) (o : hw_op K V) : nat :=
  match o with
  | HwOn i (HmErase k) => if bool_decide (is_Some (m ← sp_get s i; m !! k)) then 1 else 0
  | _ => 0
  end.
(** A run of the specification: final maps and number of successful erasures. *)
Inductive sp_run : sworld → list (hw_op K V) → list (hm_out K V) → sworld → nat → Prop :=
  | sp_nil s : sp_run s [] [] s 0
  | sp_cons s o os a as_ s1 s' n : sp_step s o = Some s1 → sp_answer s o a → sp_run s1 os as_ s' n →
      sp_run s (o :: os) (a :: as_) s' (sp_erased s o + n).
(** Every operation names existing maps, explicit reservations ask for a power of two. *)
Fixpoint sp_valid (s : sworld) (os : list (hw_op K V)) : Prop :=
  match os with
  | [] => True
  | o :: os => (match o with HwOn _ o => good_reserve o | _ => True end) ∧ ∃ s1, sp_step s o = Some s1 ∧ sp_valid s1 os
  end.

Definition tab_rel (o : option (ltab K V)) (so : option (gmap K V)) (m : nat) : Prop :=
  match o, so with
  | Some t, Some s => ht_wf hsh (lt_tab t) ∧ ht_abs (lt_tab t) = s ∧ lgood t m
  | None, None => m = 0
  | _, _ => False
  end.
Inductive rel : list (option (ltab K V)) → sworld → nat → Prop :=
  | rel_nil : rel [] [] 0
  | rel_cons o so ts ss m n : tab_rel o so m → rel ts ss n → rel (o :: ts) (so :: ss) (m + n).

Lemma rel_at ts ss n i so : rel ts ss n → ss !! i = Some so →
  ∃ o m n', ts !! i = Some o ∧ tab_rel o so m ∧ n = m + n' ∧
    ∀ o' so' m', tab_rel o' so' m' → rel (<[i := o']> ts) (<[i := so']> ss) (m' + n').
Proof.
  intros Hr. revert i. induction Hr as [|o so0 ts ss m n Ho Hr IH]; intros i Hi; [done|]. destruct i as [|i].
  - injection Hi as <-. exists o, m, n. split; [done|]. split; [done|]. split; [done|]. intros. by constructor.
  - destruct (IH i Hi) as (o1 & m1 & n' & Hi1 & H1 & -> & Hins). exists o1, m1, (m + n'). split; [done|]. split; [done|]. split; [lia|].
    intros o' so' m' H'. replace (m' + (m + n')) with (m + (m' + n')) by lia. constructor; [done|]. by apply Hins.
Qed.

Lemma rel_snoc ts ss n o so m : rel ts ss n → tab_rel o so m → rel (ts ++ [o]) (ss ++ [so]) (n + m).
Proof.
  induction 1 as [|o1 so1 ts ss m1 n1 H1 Hr IH]; intros Ho; cbn.
  - replace m with (m + 0) by lia. constructor; [done|constructor].
  - rewrite <-Nat.add_assoc. constructor; [done|by apply IH].
Qed.

Lemma rel_get w ss n i s : rel (lw_tabs w) ss n → sp_get ss i = Some s →
  ∃ t m n', lw_get w i = Some t ∧ lw_tabs w !! i = Some (Some t) ∧ ht_wf hsh (lt_tab t) ∧ ht_abs (lt_tab t) = s ∧ lgood t m ∧ n = m + n' ∧
    ∀ o' so' m', tab_rel o' so' m' → rel (<[i := o']> (lw_tabs w)) (<[i := so']> ss) (m' + n').
Proof.
  unfold sp_get. intros Hr Hs. destruct (ss !! i) as [[s0|]|] eqn:Hi; [|done..]. cbn in Hs. injection Hs as ->.
  destruct (rel_at _ _ _ _ _ Hr Hi) as ([t|] & m & n' & Ht & Htr & -> & Hins); [|done]. destruct Htr as (? & ? & ?).
  exists t, m, n'. unfold lw_get. by rewrite Ht.
Qed.

Lemma lgood_fun (t : ltab K V) (m m' : nat) : lgood t m → lgood t m' → m = m'.
Proof. intros [_ H1] [_ H2]. lia. Qed.

Lemma wf_init : ht_wf hsh (ht_init : htab K V) ∧ ht_abs (ht_init : htab K V) = ∅.
Proof. apply (empty_wf hsh 16). by exists 4%N. Qed.

Lemma new_rel : tab_rel (Some lt_init) (Some ∅) 0.
Proof. split; [apply wf_init|]. split; [apply wf_init|]. apply make_good. Qed.

Definition op_erased (s : gmap K V) (o : hm_op K V) : nat :=
  match o with HmErase k => if bool_decide (is_Some (s !! k)) then 1 else 0 | _ => 0 end.

Lemma lm_step_ok t m (o : hm_op K V) : ht_wf hsh (lt_tab t) → lgood t m → good_reserve o →
  ∃ t' a, lm_step t o = Some (t', a) ∧ ht_wf hsh (lt_tab t') ∧ ht_abs (lt_tab t') = hmap_after dflt (ht_abs (lt_tab t)) o ∧
    hmap_answer dflt (ht_abs (lt_tab t)) o a ∧ lgood t' (m + op_erased (ht_abs (lt_tab t)) o).
Proof.
  intros Hwf Hg Ho. destruct (hm_step_refines hsh dflt (lt_tab t) o Hwf Ho) as (u & a & Hs & Hwf' & Habs & Ha).
  enough (∃ t', lm_step t o = Some (t', a) ∧ lt_tab t' = u ∧ lgood t' (m + op_erased (ht_abs (lt_tab t)) o)) as (t' & E & <- & Hg').
  { by exists t', a. }
  clear Ha Habs Hwf' Ho. destruct o as [k v|k v|k|k v|k|k|k| |n| | ]; cbn [hm_step lm_step op_erased] in *; try rewrite Nat.add_0_r.
  - unfold ht_emplace in Hs. destruct (ht_grow hsh (lt_tab t) ≫= _) as [[u1 x]|] eqn:E; [|done]. cbn [mbind option_bind fst snd] in Hs.
    destruct (insert_op_sim hsh false t m k v u1 x Hg E) as (t' & -> & <- & Hg'). cbn [mbind option_bind fst snd].
    rewrite (deref_sim t' m _ Hg'). destruct (ht_deref (lt_tab t') x.1); [|done]. cbn in *. injection Hs as <- <-. by exists t'.
  - unfold ht_insert_or_assign in Hs. destruct (ht_grow hsh (lt_tab t) ≫= _) as [[u1 x]|] eqn:E; [|done]. cbn [mbind option_bind fst snd] in Hs.
    destruct (insert_op_sim hsh true t m k v u1 x Hg E) as (t' & -> & <- & Hg'). cbn [mbind option_bind fst snd].
    rewrite (deref_sim t' m _ Hg'). destruct (ht_deref (lt_tab t') x.1); [|done]. cbn in *. injection Hs as <- <-. by exists t'.
  - destruct (ht_index hsh dflt (lt_tab t) k) as [[u1 i]|] eqn:E; [|done]. cbn [mbind option_bind fst snd] in Hs.
    destruct (index_sim hsh dflt t m k u1 i Hg E) as (t' & -> & <- & Hg'). cbn [mbind option_bind fst snd].
    rewrite (deref_sim t' m _ Hg'). destruct (ht_deref (lt_tab t') i); [|done]. cbn in *. injection Hs as <- <-. by exists t'.
  - destruct (ht_index hsh dflt (lt_tab t) k) as [[u1 i]|] eqn:E; [|done]. cbn [mbind option_bind fst snd] in Hs.
    destruct (index_sim hsh dflt t m k u1 i Hg E) as (t1 & -> & <- & Hg1). cbn [mbind option_bind fst snd].
    destruct (ht_store (lt_tab t1) i v) as [u2|] eqn:E2; [|done]. cbn in Hs. injection Hs as <- <-.
    destruct (store_sim t1 m i v u2 Hg1 E2) as (t2 & -> & <- & Hg2). cbn. by exists t2.
  - rewrite (find_op_sim hsh t m k Hg). unfold ht_at in Hs. destruct (ht_find hsh (lt_tab t) k) as [[i|]|]; [| |done]; cbn [mbind option_bind] in *.
    + rewrite (deref_sim t m _ Hg). destruct (ht_deref (lt_tab t) i); [|done]. cbn in *. injection Hs as <- <-. by exists t.
    + cbn in Hs. injection Hs as <- <-. by exists t.
  - rewrite (find_op_sim hsh t m k Hg). unfold ht_contains in Hs. destruct (ht_find hsh (lt_tab t) k) as [f|]; [|done]. cbn in *.
    injection Hs as <- <-. by exists t.
  - destruct (ht_erase hsh (lt_tab t) k) as [u1|] eqn:E; [|done]. cbn in Hs. injection Hs as <- <-.
    destruct (erase_sim hsh t m k u1 Hwf Hg E) as (t' & -> & <- & Hg'). cbn. by exists t'.
  - injection Hs as <- <-. destruct (clear_sim t m Hg) as (t' & -> & E & Hg'). cbn. by exists t'.
  - destruct (ht_reserve hsh (lt_tab t) n) as [u1|] eqn:E; [|done]. cbn in Hs. injection Hs as <- <-.
    destruct (reserve_sim hsh t m n u1 Hg E) as (t' & -> & <- & Hg'). cbn. by exists t'.
  - injection Hs as <- <-. by exists t.
  - injection Hs as <- <-. by exists t.
Qed.

Lemma lw_step_ok w ss n o s1 : rel (lw_tabs w) ss n → (match o with HwOn _ o => good_reserve o | _ => True end) → sp_step ss o = Some s1 →
  ∃ w' a n', lw_step w o = Some (w', a) ∧ sp_answer ss o a ∧ rel (lw_tabs w') s1 n' ∧
    lw_gone w' + n' = lw_gone w + n + sp_erased ss o.
Proof.
  intros Hr Ho Hs. destruct o as [|i o|i|i|i j|i j|i]; cbn [lw_step sp_step sp_answer sp_erased] in *.
  - injection Hs as <-. eexists _, _, (n + 0). split; [done|]. split; [done|]. split; [by apply rel_snoc, new_rel|]. cbn. lia.
  - destruct (sp_get ss i) as [s|] eqn:Hi; [|done]. cbn in Hs. injection Hs as <-.
    destruct (rel_get _ _ _ _ _ Hr Hi) as (t & m & n' & -> & _ & Hwf & <- & Hg & -> & Hins).
    destruct (lm_step_ok t m o Hwf Hg Ho) as (t' & a & E & Hwf' & Habs' & Ha & Hg'). cbn. rewrite E. cbn.
    eexists _, _, _. split; [done|]. split; [done|]. split; [cbn; apply Hins; by split|]. cbn.
    unfold op_erased. destruct o; cbn; lia.
  - destruct (sp_get ss i) as [s|] eqn:Hi; [|done]. cbn in Hs. injection Hs as <-.
    destruct (rel_get _ _ _ _ _ Hr Hi) as (t & m & n' & E & _ & Hwf & <- & Hg & -> & _).
    unfold lw_copy. rewrite E. cbn. destruct (copy_sim t m Hg) as (t' & -> & Et & Hg'). cbn.
    eexists _, _, _. split; [done|]. split; [done|]. split; [cbn; eapply rel_snoc; [done|]; cbn; rewrite Et; done|]. cbn. lia.
  - destruct (sp_get ss i) as [s|] eqn:Hi; [|done]. cbn in Hs. injection Hs as <-.
    destruct (rel_get _ _ _ _ _ Hr Hi) as (t & m & n' & E & _ & Hwf & <- & Hg & -> & Hins).
    unfold lw_move. rewrite E. cbn.
    eexists _, _, _. split; [done|]. split; [done|]. split; [cbn; eapply rel_snoc; [apply Hins, new_rel|]; done|]. cbn. lia.
  - destruct (sp_get ss i) as [s|] eqn:Hi; [|done]. destruct (sp_get ss j) as [sj|] eqn:Hj; [|done]. cbn in Hs. injection Hs as <-.
    destruct (rel_get _ _ _ _ _ Hr Hi) as (t & m & n' & E & _ & Hwf & <- & Hg & -> & Hins).
    destruct (rel_get _ _ _ _ _ Hr Hj) as (tj & mj & nj & Ej & _ & Hwfj & <- & Hgj & _ & _).
    unfold lw_copy_assign. rewrite E, Ej. cbn. destruct (copy_sim tj mj Hgj) as (t' & -> & Et & Hg'). cbn.
    rewrite (destruct_sim t m Hg). cbn. eexists _, _, _. split; [done|]. split; [done|].
    split; [cbn; apply (Hins (Some t') _ 0); cbn; rewrite Et; done|]. cbn. lia.
  - destruct (sp_get ss i) as [s|] eqn:Hi; [|done]. destruct (sp_get ss j) as [sj|] eqn:Hj; [|done]. cbn in Hs. injection Hs as <-.
    destruct (rel_get _ _ _ _ _ Hr Hi) as (t & m & n' & E & Eti & Hwf & Habs & Hg & Hn & Hins).
    destruct (rel_get _ _ _ _ _ Hr Hj) as (tj & mj & nj & Ej & Etj & Hwfj & Habsj & Hgj & Hnj & _).
    unfold lw_move_assign. rewrite E, Ej. cbn. unfold lw_set. cbn [lw_tabs lw_gone].
    assert (tab_rel (Some tj) (Some sj) mj) as Htrj by done.
    pose proof (Hins _ _ _ Htrj) as Hr2.
    assert (<[i := Some sj]> ss !! j = Some (Some sj)) as Hj2.
    { unfold sp_get in Hi, Hj. destruct (ss !! i) as [[]|] eqn:Li; [|done..]. destruct (ss !! j) as [[]|] eqn:Lj; [|done..]. cbn in *. simplify_eq.
      destruct (decide (i = j)) as [<-|]; [by rewrite list_lookup_insert by (by eapply lookup_lt_Some)|by rewrite list_lookup_insert_ne]. }
    destruct (rel_at _ _ _ _ _ Hr2 Hj2) as (o & m2 & n2 & Ho2 & Htr2 & Hn2 & Hins2).
    eexists _, _, _. split; [done|]. split; [done|]. split; [apply (Hins2 (Some t) (Some s) m); done|]. cbn [lw_gone].
    destruct o as [t2|]; [|done]. destruct Htr2 as (_ & _ & Hg2).
    assert (t2 = tj) as ->.
    { destruct (decide (i = j)) as [<-|].
      - rewrite list_lookup_insert in Ho2 by (by eapply lookup_lt_Some). by simplify_eq.
      - rewrite list_lookup_insert_ne in Ho2 by done. by simplify_eq. }
    pose proof (lgood_fun _ _ _ Hg2 Hgj) as ->. lia.
  - destruct (sp_get ss i) as [s|] eqn:Hi; [|done]. cbn in Hs. injection Hs as <-.
    destruct (rel_get _ _ _ _ _ Hr Hi) as (t & m & n' & E & _ & Hwf & <- & Hg & -> & Hins).
    unfold lw_destroy. rewrite E. cbn. rewrite (destruct_sim t m Hg). cbn.
    eexists _, _, _. split; [done|]. split; [done|]. split; [cbn; by apply (Hins None None 0)|]. cbn. lia.
Qed.

Lemma tabs_end_ok ts ss n : rel ts ss n → tabs_end ts = Some n.
Proof.
  induction 1 as [|o so ts ss m n Ho Hr IH]; [done|]. cbn. destruct o as [t|], so as [s|]; try done.
  - destruct Ho as (_ & _ & Hg). rewrite (destruct_sim t m Hg). cbn. by rewrite IH.
  - cbn in Ho. subst m. done.
Qed.

Lemma lw_run_ok os w ss n : rel (lw_tabs w) ss n → sp_valid ss os →
  ∃ w' as_ s' k n', lw_run w os = Some (w', as_) ∧ sp_run ss os as_ s' k ∧ rel (lw_tabs w') s' n' ∧ lw_gone w' + n' = lw_gone w + n + k.
Proof.
  revert w ss n. induction os as [|o os IH]; intros w ss n Hr Hv.
  - eexists _, _, _, _, _. split; [done|]. split; [constructor|]. split; [done|]. lia.
  - destruct Hv as (Ho & s1 & Hs & Hv). destruct (lw_step_ok w ss n o s1 Hr Ho Hs) as (w1 & a & n1 & E & Ha & Hr1 & Hn1).
    destruct (IH w1 s1 n1 Hr1 Hv) as (w' & as_ & s' & k & n' & E' & Hsp & Hr' & Hn').
    exists w', (a :: as_), s', (sp_erased ss o + k), n'. cbn. rewrite E. cbn. rewrite E'. cbn. split; [done|].
    split; [by econstructor|]. split; [done|]. lia.
Qed.

Lemma rel_iter ts ss n (i : nat) s : rel ts ss n → ss !! i = Some (Some s) → ∃ t, ts !! i = Some (Some t) ∧ ht_iter (lt_tab t) ≡ₚ map_to_list s.
Proof.
  intros Hr Hi. destruct (rel_at _ _ _ _ _ Hr Hi) as ([t|] & m & n' & Ht & Htr & _); [|done]. destruct Htr as (Hwf & <- & _).
  exists t. split; [done|]. by eapply iter_perm.
Qed.
End run.

(** C65.  Any program over any number of hash maps, with copies, moves, assignments and destructions: no call uses
    or destroys an object that is not there, and at the end of the program the objects never destroyed are exactly
    as many as there were calls of erase that found their key.  The answers and final contents are those of
    finite maps ([sp_run], also claim C66). *)
Theorem C65_lifetimes {K V : Type} `{Countable K} (hsh : K → N) (dflt : V) (os : list (hw_op K V)) :
  sp_valid dflt [] os →
  ∃ w as_ s k, lw_run hsh dflt (LWorld [] 0) os = Some (w, as_) ∧ sp_run dflt [] os as_ s k ∧
    (∀ i m, s !! i = Some (Some m) → ∃ t, lw_tabs w !! i = Some (Some t) ∧ ht_iter (lt_tab t) ≡ₚ map_to_list m) ∧
    lw_end w = Some k.
Proof.
  intros Hv. destruct (lw_run_ok hsh dflt os (LWorld [] 0) [] 0 (rel_nil hsh) Hv) as (w & as_ & s & k & n & E & Hs & Hr & Hn).
  exists w, as_, s, k. split; [done|]. split; [done|]. split; [intros i m; by eapply rel_iter|].
  unfold lw_end. rewrite (tabs_end_ok hsh _ _ _ Hr). cbn in *. f_equal. lia.
Qed.

(** A program that never erases destroys every element exactly once. *)
Theorem C65_no_erase {K V : Type} `{Countable K} (hsh : K → N) (dflt : V) (os : list (hw_op K V)) :
  sp_valid dflt [] os → Forall (λ o, match o with HwOn _ (HmErase _) => False | _ => True end) os →
  ∃ w as_, lw_run hsh dflt (LWorld [] 0) os = Some (w, as_) ∧ lw_end w = Some 0.
Proof.
  intros Hv Hf. destruct (C65_lifetimes hsh dflt os Hv) as (w & as_ & s & k & E & Hs & _ & He). exists w, as_. split; [done|].
  rewrite He. f_equal. clear -Hs Hf. induction Hs as [|s o os a as_ s1 s' n _ _ Hs IH]; [done|].
  apply Forall_cons in Hf as [Ho Hf]. rewrite (IH Hf). by destruct o as [|? []| | | | |].
Qed.

(** erase leaves an object that is never destroyed. *)
Theorem C65_erase_leaks_refuted :
  lw_run (V := N) (λ k : N, k) 0%N (LWorld [] 0) [HwNew; HwOn 0 (HmEmplace 1%N 1%N); HwOn 0 (HmErase 1%N); HwDestroy 0] =
    Some (LWorld [None] 1, [HmUnit; HmPair 1%N true; HmUnit; HmUnit]).
Proof. vm_compute. done. Qed.

(** A program with collisions, growth, erasures, copies and moves. *)
Definition life_ops : list (hw_op N N) :=
  HwNew :: ((λ n, HwOn 0 (HmEmplace (N.of_nat n) (N.of_nat (n * n)))) <$> seq 0 30) ++
  [HwCopy 0; HwOn 0 (HmErase 3%N); HwOn 1 (HmAt 3%N); HwMove 0; HwOn 0 HmSize; HwOn 2 HmSize; HwOn 0 (HmEmplace 7%N 7%N);
   HwMoveAssign 0 1; HwOn 1 HmSize; HwCopyAssign 1 2; HwOn 1 (HmErase 99%N); HwOn 1 (HmErase 4%N); HwOn 1 (HmErase 5%N); HwOn 1 (HmEmplace 5%N 0%N);
   HwDestroy 1; HwOn 2 HmClear; HwOn 2 HmSize].
Example ex_C65_valid : sp_valid 0%N [] life_ops.
Proof.
  cbn [life_ops app fmap list_fmap seq sp_valid]. repeat (split; [done|eexists; split; [reflexivity|]]). done.
Qed.
Example ex_C65 : (λ r, (drop 31 r.2, lw_end r.1)) <$> lw_run (λ k, (k mod 4)%N) 0%N (LWorld [] 0) life_ops =
  Some ([HmUnit; HmUnit; HmVal (Some 9%N); HmUnit; HmNum 0; HmNum 29; HmPair 7%N true; HmUnit; HmNum 1; HmUnit; HmUnit; HmUnit; HmUnit;
    HmPair 0%N true; HmUnit; HmUnit; HmNum 0], Some 3).
Proof. vm_compute. done. Qed.

(** C66.  A copy holds the elements of its original and is independent of it, a map that was moved from is empty, copy
    assignment gives a copy, move assignment exchanges the two maps, also from and to the same map: all answers
    of all calls on all maps are those of separate finite maps, and iteration yields their entries. *)
Theorem C66_value_semantics {K V : Type} `{Countable K} (hsh : K → N) (dflt : V) (os : list (hw_op K V)) :
  sp_valid dflt [] os →
  ∃ w as_ s k, lw_run hsh dflt (LWorld [] 0) os = Some (w, as_) ∧ sp_run dflt [] os as_ s k ∧
    ∀ i m, s !! i = Some (Some m) → ∃ t, lw_tabs w !! i = Some (Some t) ∧ ht_iter (lt_tab t) ≡ₚ map_to_list m.
Proof. intros Hv. destruct (C65_lifetimes hsh dflt os Hv) as (w & as_ & s & k & E & Hs & Hi & _). by exists w, as_, s, k. Qed.
(** Its hypothesis holds of [life_ops]: see [ex_C65_valid] and the answers in [ex_C65]. *)
Example ex_C66 : ∃ w as_ s k, lw_run (λ k, (k mod 4)%N) 0%N (LWorld [] 0) life_ops = Some (w, as_) ∧ sp_run 0%N [] life_ops as_ s k.
Proof. destruct (C66_value_semantics (λ k, (k mod 4)%N) 0%N life_ops ex_C65_valid) as (w & as_ & s & k & H1 & H2 & _). exact (ex_intro _ w (ex_intro _ as_ (ex_intro _ s (ex_intro _ k (conj H1 H2))))). Qed.

Print Assumptions C66_value_semantics.
Print Assumptions C65_lifetimes.
Print Assumptions C65_no_erase.
Print Assumptions C65_erase_leaks_refuted.
