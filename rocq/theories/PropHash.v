(** C40: the hash map behaves as a finite map. *)
From Verif Require Import Base Bits HashTable HashTableProofs HashTableMap.
Ltac Zify.zify_post_hook ::= Z.div_mod_to_equations.

(** The public operations of hash_map.  [HmAssign k v] is [m[k] = v], [HmIndex k] reads [m[k]]. *)
Inductive hm_op (K V : Type) :=
| HmEmplace (k : K) (v : V)
| HmInsertOrAssign (k : K) (v : V)
| HmIndex (k : K)
| HmAssign (k : K) (v : V)
| HmAt (k : K)
| HmContains (k : K)
| HmErase (k : K)
| HmClear
| HmReserve (n : nat)
| HmSize
| HmIterate.
Arguments HmEmplace {K V} _ _.
Arguments HmInsertOrAssign {K V} _ _.
Arguments HmIndex {K V} _.
Arguments HmAssign {K V} _ _.
Arguments HmAt {K V} _.
Arguments HmContains {K V} _.
Arguments HmErase {K V} _.
Arguments HmClear {K V}.
Arguments HmReserve {K V} _.
Arguments HmSize {K V}.
Arguments HmIterate {K V}.

Inductive hm_out (K V : Type) :=
| HmUnit
| HmBool (b : bool)
| HmPair (v : V) (b : bool)
| HmVal (o : option V)
| HmNum (n : nat)
| HmList (l : list (K * V)).
Arguments HmUnit {K V}.
Arguments HmBool {K V} _.
Arguments HmPair {K V} _ _.
Arguments HmVal {K V} _.
Arguments HmNum {K V} _.
Arguments HmList {K V} _.

Section run.
Context {K V : Type} `{Countable K}.
Variable hsh : K → N.
Variable dflt : V.

(** One public operation on the modelled table: for an insertion the answer is the value behind the
    returned iterator and the inserted flag. *)
Definition hm_step (t : htab K V) (o : hm_op K V) : option (htab K V * hm_out K V) :=
  match o with
  | HmEmplace k v => r ← ht_emplace hsh t k v; w ← ht_deref r.1 r.2.1; Some (r.1, HmPair w r.2.2)
  | HmInsertOrAssign k v =>
      r ← ht_insert_or_assign hsh t k v; w ← ht_deref r.1 r.2.1; Some (r.1, HmPair w r.2.2)
  | HmIndex k => r ← ht_index hsh dflt t k; w ← ht_deref r.1 r.2; Some (r.1, HmVal (Some w))
  | HmAssign k v => r ← ht_index hsh dflt t k; t' ← ht_store r.1 r.2 v; Some (t', HmUnit)
  | HmAt k => r ← ht_at hsh t k; Some (t, HmVal r)
  | HmContains k => r ← ht_contains hsh t k; Some (t, HmBool r)
  | HmErase k => t' ← ht_erase hsh t k; Some (t', HmUnit)
  | HmClear => Some (ht_clear t, HmUnit)
  | HmReserve n => t' ← ht_reserve hsh t n; Some (t', HmUnit)
  | HmSize => Some (t, HmNum (ht_size t))
  | HmIterate => Some (t, HmList (ht_iter t))
  end.

Fixpoint hm_run (t : htab K V) (os : list (hm_op K V)) : option (htab K V * list (hm_out K V)) :=
  match os with
  | [] => Some (t, [])
  | o :: os => r ← hm_step t o; q ← hm_run r.1 os; Some (q.1, r.2 :: q.2)
  end.

(** Specification: the finite map after an operation and the answer a finite map gives. *)
Definition hmap_after (s : gmap K V) (o : hm_op K V) : gmap K V :=
  match o with
  | HmEmplace k v => match s !! k with Some _ => s | None => <[k := v]> s end
  | HmIndex k => match s !! k with Some _ => s | None => <[k := dflt]> s end
  | HmInsertOrAssign k v | HmAssign k v => <[k := v]> s
  | HmErase k => delete k s
  | HmClear => ∅
  | _ => s
  end.

Definition hmap_answer (s : gmap K V) (o : hm_op K V) (a : hm_out K V) : Prop :=
  match o with
  | HmEmplace k v => a = HmPair (default v (s !! k)) (bool_decide (s !! k = None))
  | HmInsertOrAssign k v => a = HmPair v (bool_decide (s !! k = None))
  | HmIndex k => a = HmVal (Some (default dflt (s !! k)))
  | HmAt k => a = HmVal (s !! k)
  | HmContains k => a = HmBool (bool_decide (is_Some (s !! k)))
  | HmSize => a = HmNum (size s)
  | HmIterate => ∃ l, a = HmList l ∧ l ≡ₚ map_to_list s
  | _ => a = HmUnit
  end.

Fixpoint hmap_answers (s : gmap K V) (os : list (hm_op K V)) (as_ : list (hm_out K V)) : Prop :=
  match os, as_ with
  | [], [] => True
  | o :: os, a :: as_ => hmap_answer s o a ∧ hmap_answers (hmap_after s o) os as_
  | _, _ => False
  end.

(** Explicit reservations ask for a power of two. *)
Definition good_reserve (o : hm_op K V) : Prop :=
  match o with HmReserve n => pow2 (N.of_nat n) | _ => True end.

Lemma deref_find (t : htab K V) (k : K) (v : V) i :
  ht_wf hsh t → ht_find hsh t k = Some (Some i) → ht_abs t !! k = Some v → ht_deref t i = Some v.
Proof.
  intros Hwf Hf Hk. pose proof (find_spec hsh t k Hwf) as Hs. rewrite Hk in Hs.
  destruct Hs as (j & Hf' & Hd). rewrite Hf in Hf'. by simplify_eq.
Qed.

Lemma hm_step_refines (t : htab K V) (o : hm_op K V) :
  ht_wf hsh t → good_reserve o →
  ∃ t' a, hm_step t o = Some (t', a) ∧ ht_wf hsh t' ∧
    ht_abs t' = hmap_after (ht_abs t) o ∧ hmap_answer (ht_abs t) o a.
Proof.
  intros Hwf Hg. destruct o as [k v|k v|k|k v|k|k|k| |n| | ]; cbn [hm_step hmap_after hmap_answer].
  - destruct (emplace_spec hsh t k v Hwf) as (t' & i & -> & Hwf' & Habs & Hf). cbn [mbind option_bind fst snd].
    rewrite (deref_find t' k (default v (ht_abs t !! k)) i Hwf' Hf).
    2: { rewrite Habs. destruct (ht_abs t !! k) eqn:E; cbn; [done|]. by rewrite lookup_insert. }
    cbn. eexists _, _. done.
  - destruct (insert_or_assign_spec hsh t k v Hwf) as (t' & i & -> & Hwf' & Habs & Hf).
    cbn [mbind option_bind fst snd].
    rewrite (deref_find t' k v i Hwf' Hf) by (by rewrite Habs, lookup_insert).
    cbn. eexists _, _. done.
  - destruct (index_spec hsh dflt t k Hwf) as (t' & i & -> & Hwf' & Habs & Hf). cbn [mbind option_bind fst snd].
    rewrite (deref_find t' k (default dflt (ht_abs t !! k)) i Hwf' Hf).
    2: { rewrite Habs. destruct (ht_abs t !! k) eqn:E; cbn; [done|]. by rewrite lookup_insert. }
    cbn. eexists _, _. done.
  - destruct (index_spec hsh dflt t k Hwf) as (t' & i & -> & Hwf' & Habs & Hf). cbn [mbind option_bind fst snd].
    destruct (store_spec hsh t' i k (default dflt (ht_abs t !! k)) v Hwf' Hf) as (t'' & -> & Hwf'' & Habs'').
    { rewrite Habs. destruct (ht_abs t !! k) eqn:E; cbn; [done|]. by rewrite lookup_insert. }
    cbn. eexists _, _. split; [done|]. split; [done|]. split; [|done].
    rewrite Habs'', Habs. destruct (ht_abs t !! k); [done|]. by rewrite insert_insert.
  - rewrite at_spec by done. cbn. eexists _, _. done.
  - rewrite contains_spec by done. cbn. eexists _, _. done.
  - destruct (erase_spec hsh t k Hwf) as (t' & -> & Hwf' & Habs). cbn. eexists _, _. done.
  - destruct (clear_spec hsh t Hwf). eexists _, _. done.
  - destruct (reserve_spec hsh t n Hwf Hg) as (t' & -> & Hwf' & Habs & _). cbn. eexists _, _. done.
  - eexists _, _. split; [done|]. split; [done|]. split; [done|]. by rewrite (size_spec hsh t Hwf).
  - eexists _, _. split; [done|]. split; [done|]. split; [done|]. eexists. split; [done|].
    by eapply iter_perm.
Qed.

Lemma hm_run_refines (os : list (hm_op K V)) (t : htab K V) :
  ht_wf hsh t → Forall good_reserve os →
  ∃ t' as_, hm_run t os = Some (t', as_) ∧ hmap_answers (ht_abs t) os as_ ∧
    ht_iter t' ≡ₚ map_to_list (foldl hmap_after (ht_abs t) os).
Proof.
  revert t. induction os as [|o os IH]; intros t Hwf Hg.
  - exists t, []. split; [done|]. split; [done|]. by eapply iter_perm.
  - apply Forall_cons in Hg as [Ho Hg].
    destruct (hm_step_refines t o Hwf Ho) as (t1 & a & Hs & Hwf1 & Habs & Ha).
    destruct (IH t1 Hwf1 Hg) as (t' & as_ & Hr & Has & Hit).
    exists t', (a :: as_). cbn [hm_run]. rewrite Hs. cbn [mbind option_bind fst snd]. rewrite Hr. cbn.
    rewrite Habs in Has, Hit. done.
Qed.
End run.

(** C40.  From a fresh map, for every hash function and every history whose explicit reservations
    ask for a power of two, every call terminates without undefined behaviour and answers as a
    finite map; afterwards iteration yields exactly the entries of the finite map, once each. *)
Theorem C40_hash_map_refines {K V : Type} `{Countable K} (hsh : K → N) (dflt : V) (os : list (hm_op K V)) :
  Forall good_reserve os →
  ∃ t as_, hm_run hsh dflt ht_init os = Some (t, as_) ∧ hmap_answers dflt ∅ os as_ ∧
    ht_iter t ≡ₚ map_to_list (foldl (hmap_after dflt) ∅ os).
Proof.
  intros Hg. destruct (empty_wf (K := K) (V := V) hsh 16) as [Hwf Habs].
  { by exists 4%N. }
  destruct (hm_run_refines hsh dflt os ht_init Hwf Hg) as (t & as_ & ?). exists t, as_.
  change (ht_abs ht_init) with (ht_abs (ht_make (K := K) (V := V) 16)) in *. by rewrite Habs in *.
Qed.

(** The same for any initial bucket count that is a power of two. *)
Theorem C40_any_initial_size {K V : Type} `{Countable K} (hsh : K → N) (dflt : V) (k : N) (os : list (hm_op K V)) :
  Forall good_reserve os →
  ∃ t as_, hm_run hsh dflt (ht_make (N.to_nat (2 ^ k))) os = Some (t, as_) ∧ hmap_answers dflt ∅ os as_ ∧
    ht_iter t ≡ₚ map_to_list (foldl (hmap_after dflt) ∅ os).
Proof.
  intros Hg. destruct (empty_wf (K := K) (V := V) hsh (N.to_nat (2 ^ k))) as [Hwf Habs].
  { exists k. by rewrite N2Nat.id. }
  destruct (hm_run_refines hsh dflt os _ Hwf Hg) as (t & as_ & ?). exists t, as_. by rewrite Habs in *.
Qed.

(** A history with displacement, growth, backward shift and shrinking: all keys collide. *)
Definition collide_ops : list (hm_op N N) :=
  ((λ n, HmEmplace (N.of_nat n) (N.of_nat (n * n))) <$> seq 0 40) ++
  ((λ n, HmErase (N.of_nat (3 * n))) <$> seq 0 12) ++
  [HmAt 4%N; HmAt 6%N; HmAssign 7%N 0%N; HmAt 7%N; HmIndex 99%N; HmReserve 128; HmSize].
Example C40_example_hyp : Forall good_reserve collide_ops.
Proof. apply Forall_app. split; [|apply Forall_app; split]; repeat constructor. by exists 7%N. Qed.
Example C40_example :
  (λ r, drop 52 r.2) <$> hm_run (λ k, (k mod 4)%N) 5%N ht_init collide_ops =
  Some [HmVal (Some 16%N); HmVal None; HmUnit; HmVal (Some 0%N); HmVal (Some 5%N); HmUnit; HmNum 29].
Proof. vm_compute. done. Qed.

(** Without the power-of-two condition: after reserve(6) an insertion never terminates, whatever the
    number of probes.  The assertion in the constructor (detail/hash_table.hpp:287) accepts 6. *)
Definition hz : N → N := λ _, 0%N.

Lemma probe_cycle fuel (sl : list (option (hent N N))) t a b i r :
  length sl = 6 → sl !! 0 = Some (Some a) → sl !! 1 = Some (Some b) →
  he_key a ≠ he_key b → he_key a ≠ he_key t → he_key b ≠ he_key t → i < 2 →
  insert_loop false fuel sl 0%N t i r = None.
Proof.
  revert sl t a b i r. induction fuel as [|fuel IH]; intros sl t a b i r Hl Ha Hb Hab Hat Hbt Hi; [done|].
  cbn [insert_loop]. rewrite Hl.
  destruct i as [|[|i]]; [| |lia].
  - change (ht_next 0 6) with 1. rewrite Ha. cbn [mbind option_bind]. unfold e_match.
    rewrite (bool_decide_eq_false_2 (he_key a = he_key t)), andb_false_r by done.
    case_decide.
    + apply (IH _ (e_inc a) t b); first [by rewrite insert_length|by rewrite list_lookup_insert by lia
        |by rewrite list_lookup_insert_ne by lia|done|by apply not_eq_sym|lia].
    + apply (IH _ (e_inc t) a b); try done. lia.
  - change (ht_next 1 6) with 0. rewrite Hb. cbn [mbind option_bind]. unfold e_match.
    rewrite (bool_decide_eq_false_2 (he_key b = he_key t)), andb_false_r by done.
    case_decide.
    + apply (IH _ (e_inc b) a t); first [by rewrite insert_length|by rewrite list_lookup_insert by lia
        |by rewrite list_lookup_insert_ne by lia|done|by apply not_eq_sym|lia].
    + apply (IH _ (e_inc t) a b); try done. lia.
Qed.

Theorem C40_reserve_not_power_refuted :
  ∃ t, fst <$> hm_run hz 0%N ht_init [HmReserve 6; HmEmplace 1%N 1%N; HmEmplace 2%N 2%N] = Some t ∧
    ht_size t = 2 ∧
    ∀ fuel, insert_loop false fuel (ht_slots t) (hz 3%N) (HEnt (hz 3%N) 0 3%N 3%N)
      (ht_idx (hz 3%N) (length (ht_slots t))) None = None.
Proof.
  eexists. split; [vm_compute; reflexivity|]. split; [done|]. intros fuel.
  apply (probe_cycle fuel _ _ (HEnt 0 0 1 1)%N (HEnt 0%N 1 2%N 2%N)); first [done|vm_compute; lia].
Qed.

(** reserve(0) on an empty map makes the next insertion access a bucket that does not exist. *)
Theorem C40_reserve_zero_refuted :
  hm_run hz 0%N ht_init [HmReserve 0; HmEmplace 1%N 1%N] = None.
Proof. vm_compute. done. Qed.

Print Assumptions C40_hash_map_refines.
Print Assumptions C40_any_initial_size.
Print Assumptions C40_reserve_not_power_refuted.
Print Assumptions C40_reserve_zero_refuted.
