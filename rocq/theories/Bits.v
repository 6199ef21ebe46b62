(** Model of detail/bits.hpp. *)
From Verif Require Import Base.
Ltac Zify.zify_post_hook ::= Z.div_mod_to_equations.

(** detail/bits.hpp:10-12: value & (divisor - 1).  Simplification: a zero divisor, for which the
    64-bit subtraction wraps to all ones, is the identity here (values are below 2^64). *)
Definition mod_2n (value divisor : N) : N :=
  if decide (divisor = 0)%N then value else N.land value (divisor - 1).

(** detail/bits.hpp:17-19. *)
Definition is_power_of_2 (value : N) : bool := bool_decide (N.land value (value - 1) = 0%N).

(** A power of two, for specifications. *)
Definition pow2 (n : N) : Prop := ∃ k, n = (2 ^ k)%N.

Lemma pow2_pos n : pow2 n → (0 < n)%N.
Proof. intros [k ->]. apply N.neq_0_lt_0, N.pow_nonzero. done. Qed.

Lemma mod_2n_pow2 v d : pow2 d → mod_2n v d = (v mod d)%N.
Proof.
  intros Hd. pose proof (pow2_pos _ Hd). destruct Hd as [k ->].
  unfold mod_2n. rewrite decide_False by lia.
  rewrite <-N.pred_sub, <-N.ones_equiv, N.land_ones. done.
Qed.

Lemma pow2_double n : pow2 n → pow2 (2 * n).
Proof. intros [k ->]. exists (N.succ k). by rewrite N.pow_succ_r'. Qed.

Lemma pow2_half n : pow2 n → (1 < n)%N → pow2 (n / 2).
Proof.
  intros [k ->] Hn. destruct (N.eq_dec k 0) as [->|Hk]; [done|].
  exists (N.pred k). rewrite <-(N.succ_pred k) at 1 by done.
  rewrite N.pow_succ_r', N.mul_comm, N.div_mul; done.
Qed.
