(** Histories of a handle pool, as seen by its users.  The only internal functions used are the pool
    operations themselves; everything else is bookkeeping of what was handed out. *)
From Verif Require Import Base HandlePool.

(** A pool together with the record of its use. *)
Record hist := Hist {
  hs_pool : pool;
  hs_issued : list handle;      (** every handle ever handed out, newest first *)
  hs_dead : list handle;        (** every handle that was passed to recycle *)
  hs_pending : list handle;     (** handles reserved since the last flush *)
  hs_inside : list (nat * Z) }. (** threads inside reserve, with their ticket *)

Definition hist_init : hist := Hist pool_init [] [] [] [].

(** One atomic step.  [create], [recycle] and [flush] need external synchronisation, so they happen only
    when no thread is inside [reserve]; [create] and [recycle] moreover only when every reservation has
    been flushed (the phase discipline).  Only handles that were handed out are recycled. *)
Inductive hstep : hist → hist → Prop :=
| HCreate p iss dd p' h :
    pool_create p = (p', Ok h) →
    hstep (Hist p iss dd [] []) (Hist p' (h :: iss) dd [] [])
| HRecycle p iss dd h :
    h ∈ iss →
    hstep (Hist p iss dd [] []) (Hist (pool_recycle p h) iss (h :: dd) [] [])
| HReserveEnter p iss dd pend ins t n p' :
    t ∉ ins.*1 →
    reserve_ticket p = (n, p') →
    hstep (Hist p iss dd pend ins) (Hist p' iss dd pend ((t, n) :: ins))
| HReserveLeave p iss dd pend ins1 ins2 t n p' h :
    reserve_finish n p = (p', Ok h) →
    hstep (Hist p iss dd pend (ins1 ++ (t, n) :: ins2))
          (Hist p' (h :: iss) dd (h :: pend) (ins1 ++ ins2))
| HFlush p iss dd pend :
    hstep (Hist p iss dd pend []) (Hist (pool_flush p) iss dd [] []).

(** [hreach n s]: s is reachable from the empty pool by n steps. *)
Inductive hreach : nat → hist → Prop :=
| HR0 : hreach 0 hist_init
| HRS n s s' : hreach n s → hstep s s' → hreach (S n) s'.

(** Fewer than 2^32 operations so far. *)
Definition below_wrap (n : nat) : Prop := (N.of_nat n < 2 ^ 32)%N.
