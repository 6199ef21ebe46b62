(** detail/work_stealing_queue.hpp with its memory orders (WeakMem.v): one owner and any number of
    thieves.  Every access to an atomic variable is one step, and so is a fence; a step takes the number of
    the message its load reads.  The orders of the store to [_array] in push and of the load in steal are
    parameters; the code has relaxed and consume ([code_store], [code_load]).
    An item carries, as a ghost, the events that happened before its push began.
    Simplifications: indices are unbounded integers (the code uses [int64_t]). *)
From Verif Require Import Base WeakMem WSQueue.
Local Open Scope Z_scope.

(** work_stealing_queue.hpp 173–175 and the cells of an array (137). *)
Inductive loc := LTop | LBot | LArr | LCell (a : nat) (slot : Z).
Global Instance loc_eq_dec : EqDecision loc. Proof. solve_decision. Defined.
Global Instance loc_countable : Countable loc.
Proof.
  apply (inj_countable'
    (λ l, match l with LTop => (0%nat, 0%nat, 0) | LBot => (1%nat, 0%nat, 0) | LArr => (2%nat, 0%nat, 0)
          | LCell a s => (3%nat, a, s) end)
    (λ p, match p with (O, _, _) => LTop | (1%nat, _, _) => LBot | (2%nat, _, _) => LArr | (_, a, s) => LCell a s end)).
  by intros [].
Defined.

(** Non-atomic events: the construction of an array (lines 139–143), and whatever else the threads do. *)
Notation ev := (nat + nat)%type.
Definition EvArray (a : nat) : ev := inl a.
Definition EvUser (n : nat) : ev := inr n.

Notation qview := (view loc ev).
Notation qtview := (tview loc ev).
Notation qmsg := (msg loc ev).

Definition code_store : order := Relaxed. (* line 70 *)
Definition code_load : order := Consume.  (* line 88 *)

Section queue.
Context {A : Type}.
Variables array_store array_load : order.

(** An item and its ghost. *)
Notation item := (A * gset ev)%type.

(** work_stealing_queue.hpp 134–137: the cells that were stored to, with their messages. *)
Record warr := WArr { wa_cap : Z; wa_cells : gmap Z (list (qmsg (option item))) }.

(** A new cell holds nullptr (line 142). *)
Definition cell (r : warr) (s : Z) : list (qmsg (option item)) := default [Msg None vempty] (wa_cells r !! s).
Definition slot (r : warr) (i : Z) : Z := Z.land i (wa_cap r - 1).
Definition cell_val (r : warr) (i : Z) : option item := m ← last (cell r (slot r i)); m_val m.

(** Lines 154–156. *)
Definition wa_push (a : nat) (i : Z) (x : item) (r : warr) (t : qtview) : warr * qtview :=
  let p := store Relaxed (LCell a (slot r i)) (Some x) (cell r (slot r i)) t in
  (WArr (wa_cap r) (<[slot r i := p.1]> (wa_cells r)), p.2).

(** Lines 162–170; the owner's loads of its own cells read the last message and teach it nothing; copying
    nullptr over nullptr is left out. *)
Fixpoint wcopy (n : nat) (i : Z) (old : warr) (a : nat) (r : warr) (t : qtview) : warr * qtview :=
  match n with
  | O => (r, t)
  | S n =>
    match cell_val old i with
    | Some x => let p := wa_push a i x r t in wcopy n (i + 1) old a p.1 p.2
    | None => wcopy n (i + 1) old a r t
    end
  end.

(** The owner's position, as [opc] in WSQueue.v. *)
Inductive wopc :=
  | WIdle
  | WPushA (x : item) (bottom : Z)            (* line 62 done *)
  | WPushB (x : item) (bottom top : Z)        (* line 63 done *)
  | WPushC (x : item) (bottom : Z) (a : nat)  (* lines 64–71 done *)
  | WPushD (x : item) (bottom : Z)            (* line 73 done *)
  | WPushE (x : item) (bottom : Z)            (* line 74 done *)
  | WPopS (bottom : Z)                        (* line 101 done *)
  | WPopA (bottom : Z) (a : nat)              (* line 102 done *)
  | WPopB (bottom : Z) (a : nat)              (* line 103 done *)
  | WPopF (bottom : Z) (a : nat)              (* line 104 done *)
  | WPopC (bottom top : Z) (a : nat)          (* line 105 done *)
  | WPopD (bottom top : Z) (it : option item) (* line 110 done *)
  | WPopE (bottom : Z) (it : option item).    (* lines 112–116 done, or the else branch at 120 *)

(** A thief's position in [steal]. *)
Inductive wtpc :=
  | VIdle
  | VA (top : Z)                         (* line 81 done *)
  | VF (top : Z)                         (* line 82 done *)
  | VB (top : Z)                         (* line 83 done, [top < bottom] *)
  | VC (top : Z) (a : nat)               (* line 88 done *)
  | VD (top : Z) (it : option item).     (* line 89 done *)

(** The variables (173–175), the arrays ever allocated, the order of the sequentially consistent fences,
    the threads, the completed operations, and whether an array was used by a thread that does not know of
    its construction: a data race, undefined behaviour. *)
Record wsys := WSys {
  w_top : list (qmsg Z); w_bot : list (qmsg Z); w_arr : list (qmsg nat); w_arrs : list warr;
  w_sc : gmap loc nat;
  w_opc : wopc; w_to : qtview;
  w_th : list (wtpc * qtview);
  w_log : list (event item);
  w_race : bool
}.

(** Lines 19–25; the threads start after the construction. *)
Definition tview0 : qtview := TView (vev (EvArray 0)) (vev (EvArray 0)) (vev (EvArray 0)).
Definition winit (capacity : Z) (thieves : nat) : wsys :=
  WSys [Msg 0 vempty] [Msg 0 vempty] [Msg 0%nat vempty] [WArr capacity ∅] ∅ WIdle tview0
    (replicate thieves (VIdle, tview0)) [] false.

(** A thread uses the members of array [a]. *)
Definition race_on (a : nat) (t : qtview) : bool := bool_decide (EvArray a ∉ v_ev (t_cur t)).

Definition set_owner (s : wsys) (o : wopc) (t : qtview) : wsys :=
  WSys (w_top s) (w_bot s) (w_arr s) (w_arrs s) (w_sc s) o t (w_th s) (w_log s) (w_race s).
Definition set_thief (i : nat) (s : wsys) (p : wtpc) (t : qtview) : wsys :=
  WSys (w_top s) (w_bot s) (w_arr s) (w_arrs s) (w_sc s) (w_opc s) (w_to s) (<[i := (p, t)]> (w_th s)) (w_log s) (w_race s).
Definition set_wtop (s : wsys) (h : list (qmsg Z)) : wsys :=
  WSys h (w_bot s) (w_arr s) (w_arrs s) (w_sc s) (w_opc s) (w_to s) (w_th s) (w_log s) (w_race s).
Definition set_wbot (s : wsys) (h : list (qmsg Z)) : wsys :=
  WSys (w_top s) h (w_arr s) (w_arrs s) (w_sc s) (w_opc s) (w_to s) (w_th s) (w_log s) (w_race s).
Definition set_warr (s : wsys) (h : list (qmsg nat)) : wsys :=
  WSys (w_top s) (w_bot s) h (w_arrs s) (w_sc s) (w_opc s) (w_to s) (w_th s) (w_log s) (w_race s).
Definition set_warrs (s : wsys) (l : list warr) : wsys :=
  WSys (w_top s) (w_bot s) (w_arr s) l (w_sc s) (w_opc s) (w_to s) (w_th s) (w_log s) (w_race s).
Definition set_sc (s : wsys) (sc : gmap loc nat) : wsys :=
  WSys (w_top s) (w_bot s) (w_arr s) (w_arrs s) sc (w_opc s) (w_to s) (w_th s) (w_log s) (w_race s).
Definition log_ev (s : wsys) (e : event item) : wsys :=
  WSys (w_top s) (w_bot s) (w_arr s) (w_arrs s) (w_sc s) (w_opc s) (w_to s) (w_th s) (w_log s ++ [e]) (w_race s).
Definition use (a : nat) (t : qtview) (s : wsys) : wsys :=
  WSys (w_top s) (w_bot s) (w_arr s) (w_arrs s) (w_sc s) (w_opc s) (w_to s) (w_th s) (w_log s) (w_race s || race_on a t).

(** One step of the owner inside an operation, whose load (if any) reads message [n]. *)
Definition wowner (n : nat) (s : wsys) : option wsys :=
  let t := w_to s in
  match w_opc s with
  | WIdle => None
  | WPushA x b =>                                                                (* 63 *)
    r ← load Acquire LTop n (w_top s) t; Some (set_owner s (WPushB x b r.1) r.2)
  | WPushB x b top =>                                                            (* 64–71 *)
    r ← load Relaxed LArr n (w_arr s) t;
    ar ← w_arrs s !! r.1;
    let s := use r.1 r.2 s in
    if bool_decide (wa_cap ar - 1 < b - top) then
      let a := length (w_arrs s) in
      let c := wcopy (Z.to_nat (b - top)) top ar a (WArr (2 * wa_cap ar) ∅) (learn (vev (EvArray a)) r.2) in
      let p := store array_store LArr a (w_arr s) c.2 in
      Some (set_owner (set_warr (set_warrs s (w_arrs s ++ [c.1])) p.1) (WPushC x b a) p.2)
    else Some (set_owner s (WPushC x b r.1) r.2)
  | WPushC x b a =>                                                              (* 73 *)
    ar ← w_arrs s !! a;
    let c := wa_push a b x ar t in
    Some (set_owner (set_warrs (use a t s) (<[a := c.1]> (w_arrs s))) (WPushD x b) c.2)
  | WPushD x b => Some (set_owner s (WPushE x b) (fence_release t))              (* 74 *)
  | WPushE x b =>                                                                (* 75 *)
    let p := store Relaxed LBot (b + 1) (w_bot s) t in
    Some (log_ev (set_owner (set_wbot s p.1) WIdle p.2) (EPush x))
  | WPopS b => r ← load Relaxed LArr n (w_arr s) t; Some (set_owner s (WPopA b r.1) r.2) (* 102 *)
  | WPopA b a =>                                                                 (* 103 *)
    let p := store Relaxed LBot b (w_bot s) t in
    Some (set_owner (set_wbot s p.1) (WPopB b a) p.2)
  | WPopB b a => let f := fence_sc (w_sc s) t in Some (set_owner (set_sc s f.1) (WPopF b a) f.2) (* 104 *)
  | WPopF b a =>                                                                 (* 105 *)
    r ← load Relaxed LTop n (w_top s) t; Some (set_owner s (WPopC b r.1 a) r.2)
  | WPopC b top a =>                                                             (* 109–110, 121 *)
    if bool_decide (top <= b) then
      ar ← w_arrs s !! a;
      r ← load Relaxed (LCell a (slot ar b)) n (cell ar (slot ar b)) t;
      Some (set_owner (use a t s) (WPopD b top r.1) r.2)
    else Some (set_owner s (WPopE b None) t)
  | WPopD b top it =>                                                            (* 112–118 *)
    if bool_decide (top = b) then
      '(ok, h, t') ← cas LTop top (top + 1) n (w_top s) t;
      Some (set_owner (set_wtop s h) (WPopE b (if (ok : bool) then it else None)) t')
    else Some (log_ev (set_owner s WIdle t) (EPop it))
  | WPopE b it =>                                                                (* 118, 121 *)
    let p := store Relaxed LBot (b + 1) (w_bot s) t in
    Some (log_ev (set_owner (set_wbot s p.1) WIdle p.2) (EPop it))
  end.

(** One step of thief [i] (the first step starts [steal]). *)
Definition wthief (i n : nat) (s : wsys) : option wsys :=
  pt ← w_th s !! i;
  let t := pt.2 in
  match pt.1 with
  | VIdle => r ← load Acquire LTop n (w_top s) t; Some (set_thief i s (VA r.1) r.2)   (* 81 *)
  | VA top => let f := fence_sc (w_sc s) t in Some (set_thief i (set_sc s f.1) (VF top) f.2) (* 82 *)
  | VF top =>                                                                    (* 83, 87, 95 *)
    r ← load Acquire LBot n (w_bot s) t;
    if bool_decide (top < r.1) then Some (set_thief i s (VB top) r.2)
    else Some (log_ev (set_thief i s VIdle r.2) (ESteal None))
  | VB top => r ← load array_load LArr n (w_arr s) t; Some (set_thief i s (VC top r.1) r.2) (* 88 *)
  | VC top a =>                                                                  (* 89 *)
    ar ← w_arrs s !! a;
    r ← load Relaxed (LCell a (slot ar top)) n (cell ar (slot ar top)) t;
    Some (set_thief i (use a t s) (VD top r.1) r.2)
  | VD top it =>                                                                 (* 90–92, 95 *)
    '(ok, h, t') ← cas LTop top (top + 1) n (w_top s) t;
    Some (log_ev (set_thief i (set_wtop s h) VIdle t') (ESteal (if (ok : bool) then it else None)))
  end.

(** The view of a thread: [None] is the owner. *)
Definition view_of (s : wsys) (j : option nat) : option qview :=
  match j with None => Some (t_cur (w_to s)) | Some j => (λ pt, t_cur pt.2) <$> w_th s !! j end.
Definition learn_of (s : wsys) (j : option nat) (v : qview) : wsys :=
  match j with
  | None => set_owner s (w_opc s) (learn v (w_to s))
  | Some j =>
    WSys (w_top s) (w_bot s) (w_arr s) (w_arrs s) (w_sc s) (w_opc s) (w_to s)
      (alter (λ pt, (pt.1, learn v pt.2)) j (w_th s)) (w_log s) (w_race s)
  end.

(** The owner starts push (line 62) or pop (line 101); a thread goes on; a thread does something of its
    own; a thread learns what another one knows, by synchronisation elsewhere. *)
Inductive wact :=
  | APush (x : A) (n : nat) | APop (n : nat) | AOwner (n : nat) | AThief (i n : nat)
  | AEvent (j : option nat) (e : nat) | ASync (j k : option nat).

Definition wstep (a : wact) (s : wsys) : option wsys :=
  match a with
  | APush x n =>
    match w_opc s with
    | WIdle => r ← load Relaxed LBot n (w_bot s) (w_to s);
               Some (set_owner s (WPushA (x, v_ev (t_cur (w_to s))) r.1) r.2)
    | _ => None
    end
  | APop n =>
    match w_opc s with
    | WIdle => r ← load Relaxed LBot n (w_bot s) (w_to s); Some (set_owner s (WPopS (r.1 - 1)) r.2)
    | _ => None
    end
  | AOwner n => wowner n s
  | AThief i n => wthief i n s
  | AEvent j e => Some (learn_of s j (vev (EvUser e)))
  | ASync j k => v ← view_of s k; Some (learn_of s j v)
  end.

Inductive wreach (capacity : Z) (thieves : nat) : wsys → Prop :=
  | wr_init : wreach capacity thieves (winit capacity thieves)
  | wr_step s a s' : wreach capacity thieves s → wstep a s = Some s' → wreach capacity thieves s'.
End queue.
Arguments warr : clear implicits.
Arguments wopc : clear implicits.
Arguments wtpc : clear implicits.
Arguments wsys : clear implicits.
Arguments wact : clear implicits.
