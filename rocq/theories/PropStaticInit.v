(** C91: component ids tell component types apart. *)
From Verif Require Import Base Bits HashTable TypeRegistry PropTypes StaticInit.
Local Open Scope nat_scope.

Section names.
Context (hsh : str → N) (name : nat → str).
Notation run := (ti_run hsh name).

(** The names in order of the initializations. *)
Definition inits (es : list tev) : list str := omap (λ e, match e with EInit _ t => Some (name t) | _ => None end) es.
(** The module that was the first to initialize an id of a type with name [x]. *)
Definition first_by (x : str) (es : list tev) : option nat :=
  head (omap (λ e, match e with EInit m t => if decide (name t = x) then Some m else None | _ => None end) es).

Record tinv (es : list tev) (s : tinit) : Prop := {
  tv_ok : tr_ok hsh (ti_reg s) (all_seen [] (inits es));
  tv_val m t : ti_val s !! (m, t) = if decide (EInit m t ∈ es) then N.of_nat <$> index_of (name t) (all_seen [] (inits es)) else None;
  tv_owner x : ti_owner s !! x = first_by x es;
  tv_gone m : m ∈ ti_gone s ↔ EUnload m ∈ es }.

Lemma all_seen_snoc l x : all_seen [] (l ++ [x]) = first_seen (all_seen [] l) x.
Proof. unfold all_seen. by rewrite foldl_app. Qed.
Lemma elem_all_seen l : ∀ seen x, x ∈ seen ∨ x ∈ l → x ∈ all_seen seen l.
Proof.
  induction l as [|y l IH]; intros seen x Hx; [destruct Hx as [?|Hx%elem_of_nil]; done|]. cbn. apply IH.
  destruct Hx as [Hx|[->|Hx]%elem_of_cons]; [left; by apply first_seen_mono|left; apply first_seen_elem|by right].
Qed.
Lemma inits_elem m t es : EInit m t ∈ es → name t ∈ inits es.
Proof. intros H. apply elem_of_list_omap. by exists (EInit m t). Qed.
Lemma first_by_app x es es' : first_by x (es ++ es') = match first_by x es with Some m => Some m | None => first_by x es' end.
Proof. unfold first_by. rewrite omap_app. by destruct (omap _ es). Qed.

Lemma first_by_one x m t : first_by x [EInit m t] = if decide (name t = x) then Some m else None.
Proof. unfold first_by. cbn. by case_decide. Qed.

Lemma ti_run_app es es' s : run s (es ++ es') = s1 ← run s es; run s1 es'.
Proof. revert s. induction es as [|e es IH]; intros s; [done|]. cbn. destruct (ti_step hsh name s e); [|done]. apply IH. Qed.

(** An initialization is undefined exactly when the characters of the name in the map are gone. *)
Lemma tinv_step es s e : tinv es s → (N.of_nat (length (all_seen [] (inits (es ++ [e])))) <= id_mod)%N →
  (∀ s', ti_step hsh name s e = Some s' → tinv (es ++ [e]) s') ∧
  (ti_step hsh name s e = None ↔ ∃ m t o, e = EInit m t ∧ first_by (name t) es = Some o ∧ EUnload o ∈ es).
Proof.
  intros I Hlen. destruct e as [m t|m].
  - assert (inits (es ++ [EInit m t]) = inits es ++ [name t]) as Hin by (unfold inits; by rewrite omap_app).
    rewrite Hin, all_seen_snoc in Hlen. cbn [ti_step]. case_decide as Hg.
    + split; [done|]. split; [|done]. intros _. apply Exists_exists in Hg as (o & Ho & Hg). exists m, t, o. split; [done|].
      rewrite (tv_owner _ _ I) in Ho. split; [|by apply (tv_gone _ _ I)]. destruct (first_by (name t) es) as [o'|]; [|by apply elem_of_nil in Ho].
      cbn in Ho. by apply elem_of_list_singleton in Ho as ->.
    + destruct (tr_id_ok hsh (ti_reg s) _ (name t) (tv_ok _ _ I) Hlen) as (r & i & Hid & Hok & Hi). rewrite Hid. cbn. split.
      * intros s' [= <-]. constructor; cbn.
        -- by rewrite Hin, all_seen_snoc.
        -- intros m' t'. rewrite Hin, all_seen_snoc. destruct (decide ((m', t') = (m, t))) as [[= -> ->]|Hne].
           ++ rewrite lookup_insert, decide_True by (apply elem_of_app; right; left). by rewrite Hi.
           ++ rewrite lookup_insert_ne by done. rewrite (tv_val _ _ I).
              destruct (decide (EInit m' t' ∈ es)) as [Hes|Hes].
              ** rewrite decide_True by (apply elem_of_app; by left). f_equal. assert (name t' ∈ all_seen [] (inits es)) as Hse.
                 { apply elem_all_seen. right. by eapply inits_elem. }
                 unfold first_seen. case_decide; [done|]. by rewrite index_of_app_l.
              ** rewrite decide_False; [done|]. intros [?|E%elem_of_list_singleton]%elem_of_app; [done|]. injection E as -> ->. done.
        -- intros x. rewrite first_by_app. rewrite (tv_owner _ _ I (name t)). destruct (first_by (name t) es) as [o|] eqn:Ef.
           ++ rewrite (tv_owner _ _ I). destruct (first_by x es) eqn:Ex; [done|]. rewrite first_by_one, decide_False; [done|]. intros <-. by rewrite Ef in Ex.
           ++ destruct (decide (x = name t)) as [->|Hx].
              ** rewrite lookup_insert, Ef, first_by_one. by rewrite decide_True.
              ** rewrite lookup_insert_ne by done. rewrite (tv_owner _ _ I). destruct (first_by x es); [done|]. by rewrite first_by_one, decide_False.
        -- intros m'. rewrite (tv_gone _ _ I). rewrite elem_of_app, elem_of_list_singleton. naive_solver.
      * split; [done|]. intros (m' & t' & o & [= <- <-] & Ho & Hu). exfalso. apply Hg. rewrite (tv_owner _ _ I), Ho. cbn. apply Exists_cons. left.
        by apply (tv_gone _ _ I).
  - split; [|split; [done|intros (? & ? & ? & ? & _); done]]. intros s' [= <-].
    assert (inits (es ++ [EUnload m]) = inits es) as Hin by (unfold inits; rewrite omap_app; apply app_nil_r). constructor; cbn.
    + rewrite Hin. apply I.
    + intros m' t'. rewrite Hin, (tv_val _ _ I). apply decide_ext. rewrite elem_of_app, elem_of_list_singleton. naive_solver.
    + intros x. rewrite first_by_app, (tv_owner _ _ I). by destruct (first_by x es).
    + intros m'. rewrite elem_of_union, elem_of_singleton, (tv_gone _ _ I), elem_of_app, elem_of_list_singleton. naive_solver.
Qed.

Lemma all_seen_prefix es es' : length (all_seen [] (inits es)) ≤ length (all_seen [] (inits (es ++ es'))).
Proof. unfold inits. rewrite omap_app. unfold all_seen. rewrite foldl_app. apply (all_seen_le _ (foldl first_seen [] _)). Qed.

Lemma ti_run_inv es s : (N.of_nat (length (all_seen [] (inits es))) <= id_mod)%N → run ti_init es = Some s → tinv es s.
Proof.
  revert s. induction es as [|e es IH] using rev_ind; intros s Hlen Hr.
  - cbn in Hr. injection Hr as <-. constructor; cbn; [apply tr_ok_init|done|done|]. intros m. rewrite elem_of_nil. set_solver.
  - rewrite ti_run_app in Hr. destruct (run ti_init es) as [s1|] eqn:E; [|done]. cbn in Hr.
    destruct (ti_step hsh name s1 e) as [s2|] eqn:Es; [|done]. injection Hr as <-.
    assert (tinv es s1) as I by (apply IH; [pose proof (all_seen_prefix es [e]); lia|done]).
    by apply (tinv_step es s1 e I Hlen).
Qed.

(** * C91 *)

(** The id that code sees: that of the name, in order of first initialization, and 0 before the initialization. *)
Theorem C91_seen es s m t : (N.of_nat (length (all_seen [] (inits es))) <= 2 ^ 32)%N → run ti_init es = Some s →
  (EInit m t ∈ es → index_of (name t) (all_seen [] (inits es)) = Some (N.to_nat (ti_use s m t))) ∧
  (EInit m t ∉ es → ti_use s m t = 0%N).
Proof.
  intros Hlen Hr. pose proof (ti_run_inv es s Hlen Hr) as I. unfold ti_use. rewrite (tv_val _ _ I). split; intros H.
  - rewrite decide_True by done. destruct (index_of (name t) _) as [i|] eqn:Ei; cbn; [by rewrite Nat2N.id|]. exfalso.
    apply index_of_None in Ei. apply Ei. apply elem_all_seen. right. by eapply inits_elem.
  - by rewrite decide_False.
Qed.

(** Initialized ids are equal exactly for types of the same name, also across modules. *)
Theorem C91_initialized_partial es s m1 t1 m2 t2 : (N.of_nat (length (all_seen [] (inits es))) <= 2 ^ 32)%N → run ti_init es = Some s →
  EInit m1 t1 ∈ es → EInit m2 t2 ∈ es → ti_use s m1 t1 = ti_use s m2 t2 ↔ name t1 = name t2.
Proof.
  intros Hlen Hr H1 H2. destruct (C91_seen es s m1 t1 Hlen Hr) as [E1 _]. destruct (C91_seen es s m2 t2 Hlen Hr) as [E2 _].
  specialize (E1 H1). specialize (E2 H2). split.
  - intros E. rewrite E in E1. by eapply index_of_inj.
  - intros E. rewrite E in E1. rewrite E1 in E2. injection E2 as E2. lia.
Qed.

(** Two types of the same name have one id, however different they are: types in the unnamed namespaces of two source
    files have the same name. *)
Theorem C91_same_name_refuted es s m1 t1 m2 t2 : (N.of_nat (length (all_seen [] (inits es))) <= 2 ^ 32)%N → run ti_init es = Some s →
  EInit m1 t1 ∈ es → EInit m2 t2 ∈ es → t1 ≠ t2 → name t1 = name t2 → ti_use s m1 t1 = ti_use s m2 t2.
Proof. intros Hlen Hr H1 H2 _ E. by apply (C91_initialized_partial es s m1 t1 m2 t2). Qed.

(** Code that runs before the initialization of its ids (for example the constructor of a global object that fills a
    registry) takes all its component types for one another and for the type that was initialized first. *)
Theorem C91_before_refuted es s m t : (N.of_nat (length (all_seen [] (inits es))) <= 2 ^ 32)%N → run ti_init es = Some s → EInit m t ∉ es →
  (∀ m' t', EInit m' t' ∉ es → ti_use s m t = ti_use s m' t') ∧
  (∀ m' t', EInit m' t' ∈ es → head (inits es) = Some (name t') → ti_use s m t = ti_use s m' t').
Proof.
  intros Hlen Hr H. destruct (C91_seen es s m t Hlen Hr) as [_ E]. rewrite (E H). split; intros m' t' H'; destruct (C91_seen es s m' t' Hlen Hr) as [E1 E2].
  - by rewrite E2.
  - intros Hh. specialize (E1 H'). destruct (inits es) as [|x l] eqn:El; [done|]. cbn in Hh. injection Hh as ->.
    change (all_seen [] (name t' :: l)) with (all_seen (first_seen [] (name t')) l) in E1. rewrite all_seen_index in E1 by apply first_seen_elem.
    unfold first_seen in E1. rewrite decide_False in E1 by apply not_elem_of_nil. unfold index_of in E1. cbn in E1.
    rewrite decide_True in E1 by done. cbn in E1. injection E1 as E1. lia.
Qed.

(** Without unloading nothing is undefined; after the module that used a name first is unloaded, the next module that
    initializes an id of a type of that name compares it with freed memory. *)
Theorem C91_no_unload es : (N.of_nat (length (all_seen [] (inits es))) <= 2 ^ 32)%N → (∀ m, EUnload m ∉ es) → is_Some (run ti_init es).
Proof.
  induction es as [|e es IH] using rev_ind; intros Hlen Hno; [by eexists|]. rewrite ti_run_app.
  assert (N.of_nat (length (all_seen [] (inits es))) <= 2 ^ 32)%N as Hlen' by (pose proof (all_seen_prefix es [e]); lia).
  destruct IH as [s1 Hs1]; [done|intros m Hm; apply (Hno m), elem_of_app; by left|]. rewrite Hs1. cbn.
  destruct (tinv_step es s1 e (ti_run_inv es s1 Hlen' Hs1) Hlen) as [_ Hu].
  destruct (ti_step hsh name s1 e) as [s2|]; [by eexists|]. destruct (proj1 Hu eq_refl) as (m & t & o & _ & _ & Ho).
  destruct (Hno o). apply elem_of_app. by left.
Qed.
Theorem C91_unload_refuted es m t o : (N.of_nat (length (all_seen [] (inits es))) < 2 ^ 32)%N →
  first_by (name t) es = Some o → EUnload o ∈ es → run ti_init (es ++ [EInit m t]) = None.
Proof.
  intros Hlen Ho Hu. rewrite ti_run_app. destruct (run ti_init es) as [s1|] eqn:E; [|done]. cbn [mbind option_bind ti_run].
  assert (tinv es s1) as I by (apply ti_run_inv; [unfold id_mod; lia|done]).
  assert (inits (es ++ [EInit m t]) = inits es ++ [name t]) as Hin by (unfold inits; by rewrite omap_app).
  destruct (tinv_step es s1 (EInit m t) I) as [_ Hn].
  { rewrite Hin, all_seen_snoc. unfold first_seen. case_decide; rewrite ?app_length; cbn; unfold id_mod; lia. }
  rewrite (proj2 Hn); [done|]. by exists m, t, o.
Qed.
End names.

(** Three types, of which 1 and 2 have one name, in two modules; code of module 0 that uses type 3 runs before its initialization. *)
Definition ex_name (t : nat) : str := if decide (t = 1 ∨ t = 2) then [7%N] else [N.of_nat t].
Definition ex_events : list tev := [EInit 0 1; EInit 1 3; EInit 1 2; EInit 0 4].
Example C91_example : ∃ s, ti_run (λ _, 5%N) ex_name ti_init ex_events = Some s ∧
  (ti_use s 0 1, ti_use s 1 2, ti_use s 1 3, ti_use s 0 3, ti_use s 0 4) = (0, 0, 1, 0, 2)%N ∧
  (N.of_nat (length (all_seen [] (inits ex_name ex_events))) <= 2 ^ 32)%N ∧ EInit 0 3 ∉ ex_events ∧
  first_by ex_name (ex_name 2) (ex_events ++ [EUnload 0]) = Some 0.
Proof.
  destruct (ti_run (λ _, 5%N) ex_name ti_init ex_events) as [s|] eqn:E; [|by vm_compute in E]. exists s. split; [done|].
  split; [|split; [by vm_compute|split; [|done]]].
  - assert ((λ s, (ti_use s 0 1, ti_use s 1 2, ti_use s 1 3, ti_use s 0 3, ti_use s 0 4)) <$> ti_run (λ _, 5%N) ex_name ti_init ex_events = Some (0, 0, 1, 0, 2)%N) as H by (by vm_compute).
    rewrite E in H. cbn in H. congruence.
  - intros H. repeat (apply elem_of_cons in H as [H|H]; [discriminate|]). by apply elem_of_nil in H.
Qed.

Print Assumptions C91_seen.
Print Assumptions C91_initialized_partial.
Print Assumptions C91_same_name_refuted.
Print Assumptions C91_before_refuted.
Print Assumptions C91_no_unload.
Print Assumptions C91_unload_refuted.
