(** Running concrete programs, for the examples: a program of permitted calls without views leads to a
    reached state. *)
From Verif Require Import Base Bits Layout PropLayout HandlePool HandleSpec HandlePoolProofs SparseMap SparseMapProofs
  HashTable HashTableProofs HashTableMap Bitset BitsetProofs ComponentSet ComponentSetProofs
  Chunk ChunkProofs Archetype ArchetypeProofs Registry RegistryStore RegistryProofs View ViewProofs RegSpec RegSpecProofs.

Section run.
Context (U : universe).

Definition rstep (s : sreg) (op : rop) (o : outcome rres) : sreg :=
  let w := sr_world s in
  match op, o with
  | OCreate args, Ok (RHandle h) => with_world (issue s h) (<[h := list_to_map args]> w)
  | OCreate _, _ => fail s
  | ODestroy h, _ => match w !! h with Some _ => kill s h | None => s end
  | OSet h c (CtorOk v), _ =>
      match w !! h, o with Some m, Ok _ => with_world s (<[h := <[c := v]> m]> w) | Some _, _ => fail s | None, _ => s end
  | OGetOrInsert h c (CtorOk v), _ =>
      match w !! h, o with
      | Some m, Ok _ => match m !! c with Some _ => s | None => with_world s (<[h := <[c := v]> m]> w) end
      | Some _, _ => fail s
      | None, _ => s
      end
  | ORemove h c, _ =>
      match w !! h, o with Some m, Ok _ => with_world s (<[h := delete c m]> w) | Some _, _ => fail s | None, _ => s end
  | OClone h, _ =>
      match w !! h, o with Some m, Ok (RHandle ph) => with_world (issue s ph) (<[ph := m]> w) | Some _, _ => leak s | None, _ => s end
  | OCloneInto h ph, _ =>
      match w !! h, o with Some m, Ok _ => with_world s (<[ph := m]> w) | Some _, _ => leak s | None, _ => s end
  | OReserve, Ok (RHandle h) => SReg w (h :: sr_issued s) (sr_dead s) (h :: sr_pending s) (sr_failed s) (sr_leaky s)
  | OSync, _ => SReg w (sr_issued s) (sr_dead s) [] (sr_failed s) (sr_leaky s)
  | _, _ => s
  end.

Definition not_view (op : rop) : bool := match op with OEach _ _ => false | _ => true end.

Lemma rstep_ok s op o s' : not_view op = true → rnext U s op o s' → s' = rstep s op o.
Proof.
  intros Hv Hn. assert (∀ h, missing s h o → ∃ e, o = Throw e) as Hmiss by (intros h (e & -> & _); eauto).
  destruct op; try done; cbn in Hn; try (destruct (sr_world s !! h) as [m|] eqn:Hw; [|destruct Hn as [(e & ->)%Hmiss ->]; cbn; rewrite ?Hw; try done; by destruct x]);
    cbn; rewrite ?Hw.
  - by destruct Hn as [(g & Hg & -> & ->)|(-> & _ & ->)].
  - by destruct Hn as [-> ->].
  - destruct x; [by destruct Hn as [[-> ->]|(-> & _ & _ & ->)]|by destruct Hn as [-> ->]].
  - destruct (m !! c) eqn:Hmc; [destruct Hn as [-> ->]; by destruct x|]. destruct x; [|done]. by destruct Hn as [[-> ->]|(-> & _ & ->)].
  - by destruct Hn as [[-> ->]|(-> & _ & _ & ->)].
  - by destruct Hn as [-> ->].
  - by destruct Hn as (? & -> & _ & ->).
  - by destruct Hn as (? & -> & _ & _ & ->).
  - by destruct Hn as (? & -> & _ & _ & ->).
  - by destruct Hn as [-> ->].
  - by destruct Hn as [(_ & g & Hg & -> & ->)|(_ & -> & ->)].
  - by destruct Hn as [(_ & -> & ->)|(_ & -> & ->)].
  - by destruct Hn as (? & _ & -> & ->).
  - by destruct Hn as [-> ->].
  - by destruct Hn as [-> _].
Qed.

Definition sstep (ss : list sreg) (op : sop) (o : outcome rres) : list sreg :=
  match op with
  | At i op => match ss !! i with Some s => <[i := rstep s op o]> ss | None => ss end
  | Copy i h j | CopyInto i h j _ =>
      match ss !! i, ss !! j with
      | Some a, Some b =>
          match sr_world a !! h, o, op with
          | None, _, _ => ss
          | Some m, Ok (RHandle ph), Copy _ _ _ => <[j := with_world (issue b ph) (<[ph := m]> (sr_world b))]> ss
          | Some m, Ok _, CopyInto _ _ _ ph => <[j := with_world b (<[ph := m]> (sr_world b))]> ss
          | Some _, _, _ => <[j := leak b]> ss
          end
      | _, _ => ss
      end
  | Move i h j | MoveInto i h j _ =>
      match ss !! i, ss !! j with
      | Some a, Some b =>
          match sr_world a !! h, o, op with
          | Some m, Ok (RHandle ph), Move _ _ _ => <[j := with_world (issue b ph) (<[ph := m]> (sr_world b))]> (<[i := kill a h]> ss)
          | Some m, Ok _, MoveInto _ _ _ ph => <[j := with_world b (<[ph := m]> (sr_world b))]> (<[i := kill a h]> ss)
          | _, _, _ => ss
          end
      | _, _ => ss
      end
  end.

Definition snot_view (op : sop) : bool := match op with At _ op => not_view op | _ => true end.

Lemma sstep_ok' ss op o ss' : snot_view op = true → snext U ss op o ss' → ss' = sstep ss op o.
Proof.
  intros Hv Hn. assert (∀ s h, missing s h o → ∃ e, o = Throw e) as Hmiss by (intros s h (e & -> & _); eauto).
  destruct op as [i op|i h j|i h j ph|i h j|i h j ph]; cbn [snext] in Hn.
  - destruct Hn as (s & s' & Hs & Hn & ->). cbn. rewrite Hs. by rewrite <- (rstep_ok _ _ _ _ Hv Hn).
  - destruct Hn as (a & b & Ha & Hb & Hn). cbn. rewrite Ha, Hb. destruct (sr_world a !! h); [|by destruct Hn as [_ ->]].
    by destruct Hn as [(_ & ph & _ & -> & ->)|(_ & -> & ->)].
  - destruct Hn as (a & b & Ha & Hb & Hn). cbn. rewrite Ha, Hb. destruct (sr_world a !! h); [|by destruct Hn as [_ ->]].
    by destruct Hn as [(_ & -> & ->)|(_ & -> & ->)].
  - destruct Hn as (a & b & Ha & Hb & Hn). cbn. rewrite Ha, Hb. destruct (sr_world a !! h); [|by destruct Hn as [_ ->]].
    by destruct Hn as (ph & _ & -> & ->).
  - destruct Hn as (a & b & Ha & Hb & Hn). cbn. rewrite Ha, Hb. destruct (sr_world a !! h); [|by destruct Hn as [_ ->]].
    by destruct Hn as [-> ->].
Qed.


Definition vacant_b (s : sreg) (h : handle) : bool :=
  bool_decide (h ∈ sr_issued s ∧ h ∉ sr_dead s ∧ h ∉ sr_pending s) && bool_decide (sr_world s !! h = None).

Definition permitted_b (s : sreg) (op : rop) : bool :=
  match op with
  | OCreate args => bool_decide (sr_pending s = []) && bool_decide (NoDup args.*1) && bool_decide (u_ent U ∉ args.*1)
  | ODestroy _ | OClone _ => bool_decide (sr_pending s = [])
  | OSet h c x | OGetOrInsert h c x => bool_decide (c ≠ u_ent U) &&
      match x with
      | CtorOk _ => true
      | CtorThrows => match sr_world s !! h with Some m => bool_decide (is_Some (m !! c)) | None => true end
      end
  | ORemove _ c | OGet _ c => bool_decide (c ≠ u_ent U)
  | OHas _ _ | OVisit _ | OAlive _ | OSize | OReserve | OSync => true
  | OCloneInto _ ph => vacant_b s ph
  | OEach rq _ | OSingle rq => bool_decide (rq ≠ []) && bool_decide (VReq (u_ent U) true ∉ rq)
  end.
Definition spermitted_b (ss : list sreg) (op : sop) : bool :=
  match op with
  | At i op => match ss !! i with Some s => permitted_b s op | None => false end
  | Copy i h j =>
      match ss !! i, ss !! j with
      | Some a, Some b => bool_decide (i ≠ j) && bool_decide (sr_pending b = [])
      | _, _ => false
      end
  | CopyInto i h j ph =>
      match ss !! i, ss !! j with
      | Some a, Some b => bool_decide (i ≠ j) && vacant_b b ph
      | _, _ => false
      end
  | Move i h j =>
      match ss !! i, ss !! j with
      | Some a, Some b => bool_decide (i ≠ j) && bool_decide (sr_pending a = []) && bool_decide (sr_pending b = [])
      | _, _ => false
      end
  | MoveInto i h j ph =>
      match ss !! i, ss !! j with
      | Some a, Some b => bool_decide (i ≠ j) && bool_decide (sr_pending a = []) && vacant_b b ph
      | _, _ => false
      end
  end.

Lemma vacant_ok s h : vacant_b s h = true → vacant s h.
Proof. unfold vacant_b. by intros [H1%bool_decide_eq_true H2%bool_decide_eq_true]%andb_true_iff. Qed.

Ltac split_b := repeat match goal with
  | H : _ && _ = true |- _ => apply andb_true_iff in H as [? ?]
  | H : bool_decide _ = true |- _ => apply bool_decide_eq_true in H
  | H : vacant_b _ _ = true |- _ => apply vacant_ok in H end.

Lemma permitted_ok s op : permitted_b s op = true → permitted U s op.
Proof.
  destruct op; cbn; intros H; split_b; auto; (split; [done|]); intros -> m Hm; rewrite Hm in *; by split_b.
Qed.
Lemma spermitted_ok ss op : spermitted_b ss op = true → spermitted U ss op.
Proof.
  destruct op as [i op|i h j|i h j ph|i h j|i h j ph]; cbn.
  - destruct (ss !! i) as [s|]; [|done]. intros H%permitted_ok. eauto.
  - destruct (ss !! i) as [a|], (ss !! j) as [b|]; try done. intros H; split_b. eauto 10.
  - destruct (ss !! i) as [a|], (ss !! j) as [b|]; try done. intros H; split_b. eauto 10.
  - destruct (ss !! i) as [a|], (ss !! j) as [b|]; try done. intros H; split_b. eauto 10.
  - destruct (ss !! i) as [a|], (ss !! j) as [b|]; try done. intros H; split_b. eauto 10.
Qed.

Definition is_ub {A} (o : outcome A) : bool := match o with UB => true | _ => false end.

Fixpoint prog (ops : list sop) (rs : list registry) (ss : list sreg) : option (list registry * list sreg) :=
  match ops with
  | [] => Some (rs, ss)
  | op :: ops =>
      if spermitted_b ss op && snot_view op then
        let '(rs', o) := run_sop U op rs in
        if is_ub o then None else prog ops rs' (sstep ss op o)
      else None
  end.

Hypothesis HU : u_wf U.

Lemma prog_reach_gen ops : ∀ n rs ss rs' ss', reach U n rs ss → below_wrap (2 * (length ops + n)) →
  prog ops rs ss = Some (rs', ss') → reach U (length ops + n) rs' ss'.
Proof.
  induction ops as [|op ops IH]; intros n rs ss rs' ss' Hr Hbw E; cbn [prog] in E.
  - injection E as <- <-. done.
  - destruct (spermitted_b ss op && snot_view op) eqn:Hp; [|done]. apply andb_true_iff in Hp as [Hp%spermitted_ok Hv].
    destruct (run_sop U op rs) as [rs1 o] eqn:Hrun. cbn [length] in *.
    replace (S (length ops) + n) with (length ops + S n) in * by lia.
    destruct (reach_step U HU _ _ _ _ _ _ Hr ltac:(unfold below_wrap in *; lia) Hp Hrun) as [(ss1 & Hn & Hr1 & _)|[-> _]]; [|done].
    rewrite <- (sstep_ok' _ _ _ _ Hv Hn) in E. destruct (is_ub o); [done|]. by apply (IH (S n) rs1 ss1).
Qed.

Lemma prog_reach k ops rs ss : below_wrap (2 * length ops) → prog ops (replicate k rg_init) (replicate k sreg_init) = Some (rs, ss) →
  reach U (length ops) rs ss.
Proof.
  intros Hbw E. pose proof (prog_reach_gen ops 0 _ _ rs ss (Reach0 U k)) as H. rewrite !Nat.add_0_r in H. by apply H.
Qed.
End run.

(** The component types of the examples: 0 is the entity, 1 to 4 are small, 5 cannot be copied, 6 has 8000 bytes,
    7 has 20000 bytes. *)
Definition U0 : universe :=
  Universe (λ c, if decide (c = 0%N) then entity_type else if decide (c = 6%N) then CType 8000 8 else if decide (c = 7%N) then CType 20000 8 else CType 4 4)
    (λ c, negb (bool_decide (c = 5%N))) 0%N.
Lemma U0_wf : u_wf U0.
Proof. split; [done| |done]. intros c. cbn. repeat case_decide; cbn; vm_compute; done. Qed.
