(** Generation wrap-around: after 2^32 recycles of one slot a stale handle is alive again. *)
From Verif Require Import Base HandlePool HandleSpec HandlePoolProofs.
Ltac Zify.zify_post_hook ::= Z.div_mod_to_equations.

Lemma mod_succ_w32 k : inc32 (N.of_nat k mod w32)%N = (N.of_nat (S k) mod w32)%N.
Proof.
  unfold inc32. rewrite N.add_mod_idemp_l by done. f_equal. lia.
Qed.

(** The pool after k rounds of create and recycle on slot 0, k >= 1. *)
Definition round_pool (k : nat) : pool := Pool 1 1 [(N.of_nat k mod w32)%N] [0%N].

Lemma round_step k n iss dd :
  hreach n (Hist (round_pool k) iss dd [] []) →
  ∃ iss' dd', hreach (S (S n)) (Hist (round_pool (S k)) iss' dd' [] []) ∧ (∀ h, h ∈ dd → h ∈ dd').
Proof.
  intros Hr. eexists _, _. split.
  - eapply HRS; [eapply HRS; [exact Hr|]|].
    + apply HCreate. reflexivity.
    + replace (round_pool (S k)) with
        (pool_recycle (Pool 1 0 [(N.of_nat k mod w32)%N] []) (Handle 0 (N.of_nat k mod w32)%N)).
      * apply HRecycle. left.
      * unfold round_pool. rewrite <- mod_succ_w32. generalize (N.of_nat k mod w32)%N as x. intros x.
        unfold pool_recycle, pool_alive. cbn [gens h_id h_gen].
        change ([x] !! N.to_nat 0) with (Some x). cbv iota beta. by rewrite bool_decide_true.
  - intros h Hh. by right.
Qed.

Lemma round_first : ∃ iss, hreach 2 (Hist (round_pool 1) iss [Handle 0 0] [] []).
Proof.
  eexists. eapply HRS; [eapply HRS; [apply HR0|]|].
  - apply HCreate. reflexivity.
  - replace (round_pool 1) with (pool_recycle (Pool 1 0 [0%N] []) (Handle 0 0)) by reflexivity.
    apply HRecycle. left.
Qed.

Lemma rounds k : ∃ n iss dd, hreach n (Hist (round_pool (S k)) iss dd [] []) ∧ Handle 0 0 ∈ dd.
Proof.
  induction k as [|k (n & iss & dd & Hr & Hd)].
  - destruct round_first as [iss Hr]. eexists _, _, _. split; [exact Hr|]. left.
  - destruct (round_step _ _ _ _ Hr) as (iss' & dd' & Hr' & Hd').
    eexists _, _, _. split; [exact Hr'|]. by apply Hd'.
Qed.

Lemma round_pool_alive k : (N.of_nat k mod w32 = 0)%N → pool_alive (round_pool k) (Handle 0 0) = true.
Proof.
  intros Hk. unfold round_pool, pool_alive. cbn [gens h_id h_gen].
  change (N.to_nat 0) with 0. rewrite Hk. reflexivity.
Qed.

Lemma wrap_revives :
  ∃ n s h, hreach n s ∧ h ∈ hs_dead s ∧ pool_alive (hs_pool s) h = true.
Proof.
  assert (∃ k, (N.of_nat (S k) = w32)%N) as [k Hk].
  { exists (pred (N.to_nat w32)). rewrite Nat.succ_pred; [apply N2Nat.id|].
    intros E. assert (w32 = 0)%N; [|done]. by apply N2Nat.inj. }
  destruct (rounds k) as (n & iss & dd & Hr & Hd).
  exists n, (Hist (round_pool (S k)) iss dd [] []), (Handle 0 0). split; [done|]. split; [done|].
  apply round_pool_alive. rewrite Hk. by apply N.mod_same.
Qed.
