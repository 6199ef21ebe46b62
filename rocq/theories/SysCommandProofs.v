(** Commands recorded beside each other: which order they take effect in does not matter, if no system changes an
    entity that another one uses. *)
From Verif Require Import Base Bits Layout HandlePool HandleSpec SparseMap HashTable Bitset ComponentSet Chunk Archetype Registry View
  RegSpec Command CommandSpec CommandProofs SysCommand.

Section order.
Context (U : universe).

(** * An operation reads one entity and changes one *)
Definition rd (x : crec * handle) : handle := match x.1 with KCreate _ => x.2 | KClone h | KSet h _ _ | KRemove h _ | KDestroy h => h end.
Definition wr (x : crec * handle) : handle := match x.1 with KCreate _ | KClone _ => x.2 | KSet h _ _ | KRemove h _ | KDestroy h => h end.
Definition eff (k : crec) (o v : option (gmap cid val)) : Prop :=
  match k with
  | KCreate args => v = Some (list_to_map args)
  | KClone _ => ∃ m, o = Some m ∧ copyable U m ∧ v = Some m
  | KSet _ c x => ∃ m, o = Some m ∧ v = Some (<[c := x]> m)
  | KRemove _ c => ∃ m, o = Some m ∧ v = Some (delete c m)
  | KDestroy _ => ∃ m, o = Some m ∧ v = None
  end.
Lemma eff_det k o v v' : eff k o v → eff k o v' → v = v'.
Proof. destruct k; cbn; intros; destruct_and?; destruct_or?; naive_solver. Qed.

Lemma direct_ok (w : world) k g w' : direct U w k g (Ok tt) w' ↔ ∃ v, eff k (w !! rd (k, g)) v ∧ w' = partial_alter (λ _, v) (wr (k, g)) w.
Proof.
  destruct k as [args|h|h c x|h c|h]; cbn.
  - split; [intros [_ ->]; by eexists|]. intros (v & -> & ->). done.
  - destruct (w !! h) as [m|] eqn:E.
    + split.
      * intros [(Hc & _ & ->)|(_ & ? & _)]; [|done]. exists (Some m). split; [by exists m|done].
      * intros (v & (m' & [= <-] & Hc & ->) & ->). left. done.
    + split; [|intros (v & (m' & ? & _) & _); done]. unfold absent. naive_solver.
  - destruct (w !! h) as [m|] eqn:E.
    + split.
      * intros [(_ & ->)|(? & _)]; [|done]. exists (Some (<[c:=x]> m)). split; [by exists m|done].
      * intros (v & (m' & [= <-] & ->) & ->). left. done.
    + split; [|intros (v & (m' & ? & _) & _); done]. unfold absent. naive_solver.
  - destruct (w !! h) as [m|] eqn:E.
    + split.
      * intros [(_ & ->)|(? & _)]; [|done]. exists (Some (delete c m)). split; [by exists m|done].
      * intros (v & (m' & [= <-] & ->) & ->). left. done.
    + split; [|intros (v & (m' & ? & _) & _); done]. unfold absent. naive_solver.
  - destruct (w !! h) as [m|] eqn:E.
    + split.
      * intros (_ & ->). exists None. split; [by exists m|done].
      * intros (v & (m' & [= <-] & ->) & ->). done.
    + split; [|intros (v & (m' & ? & _) & _); done]. unfold absent. naive_solver.
Qed.

(** Whether it throws depends on the entity that it reads; a refused layout is the only outcome left open. *)
Lemma direct_throw (w w' w1 w1' : world) k g e : direct U w k g (Throw e) w' → direct U w1 k g (Ok tt) w1' → w !! rd (k, g) = w1 !! rd (k, g) →
  e = InsufficientChunkSize.
Proof.
  intros H1 H2%direct_ok E. rewrite <- E in H2. clear E. destruct H2 as (v & Hv & _). revert H1 Hv.
  destruct k as [args|h|h c x|h c|h]; cbn; [by intros [? _]|..]; destruct (w !! h) as [m|]; unfold absent; naive_solver.
Qed.

(** * Operations on different entities commute *)
Definition indep (x y : crec * handle) : Prop := wr x ≠ wr y ∧ wr x ≠ rd y ∧ rd x ≠ wr y.
Lemma indep_sym x y : indep x y → indep y x.
Proof. intros (? & ? & ?). split; [congruence|]. split; congruence. Qed.

Lemma direct_swap (w w1 w2 : world) k g k' g' : indep (k, g) (k', g') → direct U w k g (Ok tt) w1 → direct U w1 k' g' (Ok tt) w2 →
  ∃ w3, direct U w k' g' (Ok tt) w3 ∧ direct U w3 k g (Ok tt) w2.
Proof.
  intros (N1 & N2 & N3) (v & Hv & ->)%direct_ok (v' & Hv' & ->)%direct_ok. rewrite lookup_partial_alter_ne in Hv' by done.
  eexists. split; [apply direct_ok; by exists v'|]. apply direct_ok. exists v. rewrite lookup_partial_alter_ne by done. split; [done|].
  by apply partial_alter_commute.
Qed.

Notation oks w l w' := (directs U w l [] (Ok tt) w').
Lemma oks_cons (w w' : world) k g l : oks w ((k, g) :: l) w' ↔ ∃ w1, direct U w k g (Ok tt) w1 ∧ oks w1 l w'.
Proof.
  split.
  - inversion 1; subst. eauto.
  - intros (w1 & H1 & H2). by eapply DirectsOk.
Qed.
Lemma oks_nil (w w' : world) : oks w [] w' ↔ w' = w.
Proof. split; [by inversion 1|]. intros ->. constructor. Qed.
Lemma oks_app (w w' : world) l1 l2 : oks w (l1 ++ l2) w' ↔ ∃ w1, oks w l1 w1 ∧ oks w1 l2 w'.
Proof.
  revert w. induction l1 as [|[k g] l1 IH]; intros w; cbn.
  - split; [intros H; exists w; split; [by apply oks_nil|done]|]. by intros (w1 & ->%oks_nil & ?).
  - rewrite oks_cons. setoid_rewrite IH. setoid_rewrite oks_cons. naive_solver.
Qed.
Lemma oks_det (w w1 w2 : world) l : oks w l w1 → oks w l w2 → w1 = w2.
Proof.
  revert w. induction l as [|[k g] l IH]; intros w.
  - intros ->%oks_nil ->%oks_nil. done.
  - intros (wa & (v & Hv & ->)%direct_ok & Ha)%oks_cons (wb & (v' & Hv' & ->)%direct_ok & Hb)%oks_cons.
    rewrite (eff_det _ _ _ _ Hv Hv') in Ha. by eapply IH.
Qed.

Lemma oks_across (w w' : world) x l l2 : Forall (indep x) l → oks w (x :: l ++ l2) w' ↔ oks w (l ++ x :: l2) w'.
Proof.
  intros H. revert w. induction H as [|[k' g'] l Hx _ IH]; intros w; [done|]. destruct x as [k g]. cbn. split.
  - intros (w1 & H1 & (w2 & H2 & H3)%oks_cons)%oks_cons. destruct (direct_swap _ _ _ _ _ _ _ Hx H1 H2) as (w3 & H4 & H5).
    apply oks_cons. exists w3. split; [done|]. apply IH. apply oks_cons. eauto.
  - intros (w1 & H1 & H2)%oks_cons. apply IH in H2 as (w2 & H2 & H3)%oks_cons.
    destruct (direct_swap _ _ _ _ _ _ _ (indep_sym _ _ Hx) H1 H2) as (w3 & H4 & H5).
    apply oks_cons. exists w3. split; [done|]. apply oks_cons. eauto.
Qed.

(** * Operations marked with the system that they come from *)
Notation tagged := (nat * (crec * handle))%type.
Definition sel (j : nat) (T : list tagged) : list (crec * handle) := (filter (λ x, x.1 = j) T).*2.
Definition oth (j : nat) (T : list tagged) : list tagged := filter (λ x, x.1 ≠ j) T.
Definition sep (T : list tagged) : Prop := ∀ x y, x ∈ T → y ∈ T → x.1 ≠ y.1 → indep x.2 y.2.

Lemma sel_cons j x T : sel j (x :: T) = if decide (x.1 = j) then x.2 :: sel j T else sel j T.
Proof. unfold sel. rewrite filter_cons. by case_decide. Qed.
Lemma oth_cons j x T : oth j (x :: T) = if decide (x.1 = j) then oth j T else x :: oth j T.
Proof. unfold oth. rewrite filter_cons. repeat case_decide; naive_solver. Qed.
Lemma sel_app j T T' : sel j (T ++ T') = sel j T ++ sel j T'.
Proof. unfold sel. by rewrite filter_app, fmap_app. Qed.
Lemma sel_elem j T x : x ∈ sel j T ↔ (j, x) ∈ T.
Proof.
  unfold sel. rewrite elem_of_list_fmap. split.
  - intros ([j' y] & -> & [E Hy]%elem_of_list_filter). cbn in E. by subst.
  - intros H. exists (j, x). split; [done|]. by apply elem_of_list_filter.
Qed.
Lemma oth_sub j T x : x ∈ oth j T → x ∈ T.
Proof. by intros [_ ?]%elem_of_list_filter. Qed.
Lemma sel_oth j j' T : j ≠ j' → sel j' (oth j T) = sel j' T.
Proof.
  intros N. induction T as [|x T IH]; [done|]. rewrite oth_cons, sel_cons. case_decide as E1; case_decide as E2; subst; [done|done|..];
    rewrite sel_cons; case_decide; congruence.
Qed.

Lemma oks_split (w w' : world) j T : sep T → oks w T.*2 w' ↔ oks w (sel j T ++ (oth j T).*2) w'.
Proof.
  revert w. induction T as [|[j' x] T IH]; intros w Hs; [done|].
  assert (sep T) as Hs' by (intros a b Ha Hb; apply Hs; by right). rewrite sel_cons, oth_cons. cbn [fst snd]. case_decide as E.
  - rewrite fmap_cons. destruct x as [k g]. cbn. rewrite !oks_cons. by setoid_rewrite IH.
  - rewrite !fmap_cons. cbn [snd]. rewrite <- oks_across.
    + destruct x as [k g]. rewrite !oks_cons. by setoid_rewrite IH.
    + apply Forall_forall. intros y Hy%sel_elem. apply (Hs (j', x) (j, y)); [by left|by right|done].
Qed.

Lemma oks_by_system js : ∀ (w w' : world) T, NoDup js → (∀ x, x ∈ T → x.1 ∈ js) → sep T →
  oks w T.*2 w' ↔ oks w (concat ((λ j, sel j T) <$> js)) w'.
Proof.
  induction js as [|j js IH]; intros w w' T Hnd Hin Hs.
  - destruct T as [|x T]; [done|]. specialize (Hin x ltac:(by left)). by apply elem_of_nil in Hin.
  - apply NoDup_cons in Hnd as [Hj Hnd]. rewrite (oks_split w w' j T Hs). cbn [fmap list_fmap concat]. rewrite !oks_app.
    assert ((λ j0, sel j0 T) <$> js = (λ j0, sel j0 (oth j T)) <$> js) as ->.
    { apply list_fmap_ext. intros ? j' Hj'%elem_of_list_lookup_2. symmetry. apply sel_oth. by intros ->. }
    assert (∀ w1, oks w1 (oth j T).*2 w' ↔ oks w1 (concat ((λ j0, sel j0 (oth j T)) <$> js)) w') as E; [|by setoid_rewrite E].
    intros w1. apply IH; [done| |].
    + intros x [Hne Hx]%elem_of_list_filter. specialize (Hin x Hx). apply elem_of_cons in Hin as [?|?]; [done|done].
    + intros x y Hx%oth_sub Hy%oth_sub. by apply Hs.
Qed.

(** No order ends with another exception than a refused layout, if one order succeeds. *)
Lemma oks_throw (w w' w2 : world) l rest e : oks w l w' → directs U w l rest (Throw e) w2 → e = InsufficientChunkSize.
Proof.
  revert w. induction l as [|[k g] l IH]; intros w Hok H; [by inversion H|]. apply oks_cons in Hok as (w1 & H1 & H2).
  inversion H as [|? ? ? w3 ? ? ? ? Ha Hb|? ? ? ? ? ? Ha]; subst.
  - apply direct_ok in H1 as (v & Hv & ->). apply direct_ok in Ha as (v' & Hv' & ->). rewrite (eff_det _ _ _ _ Hv Hv') in H2. by eapply IH.
  - by eapply direct_throw.
Qed.

(** * Renaming *)
Definition rmap (f : handle → handle) (k : crec) : crec :=
  match k with
  | KCreate args => KCreate args
  | KClone h => KClone (f h)
  | KSet h c v => KSet (f h) c v
  | KRemove h c => KRemove (f h) c
  | KDestroy h => KDestroy (f h)
  end.
Definition ren (f : handle → handle) (x y : crec * handle) : Prop := y.1 = rmap f x.1 ∧ (makes x.1 = true → y.2 = f x.2).
Lemma ren_rd f x y : ren f x y → rd y = f (rd x).
Proof. destruct x as [[] ?], y as [[] ?]; intros [E1 E2]; cbn in *; simplify_eq; auto. Qed.
Lemma ren_wr f x y : ren f x y → wr y = f (wr x).
Proof. destruct x as [[] ?], y as [[] ?]; intros [E1 E2]; cbn in *; simplify_eq; auto. Qed.
Lemma ren_eff f x y o v : ren f x y → eff x.1 o v → eff y.1 o v.
Proof. destruct x as [[] ?], y as [[] ?]; intros [E1 E2]; cbn in *; simplify_eq; auto. Qed.

(** [w2] is [w1] with the handles of [A] renamed. *)
Definition wrel (A : list handle) (f : handle → handle) (w1 w2 : world) : Prop :=
  (∀ h, is_Some (w1 !! h) → h ∈ A) ∧ (∀ h, h ∈ A → w2 !! f h = w1 !! h) ∧ (∀ g, is_Some (w2 !! g) → ∃ h, h ∈ A ∧ g = f h).
Definition inj_on (A : list handle) (f : handle → handle) : Prop := ∀ x y, x ∈ A → y ∈ A → f x = f y → x = y.

Lemma wrel_alter A f w1 w2 h v : inj_on A f → wrel A f w1 w2 → h ∈ A → wrel A f (partial_alter (λ _, v) h w1) (partial_alter (λ _, v) (f h) w2).
Proof.
  intros Hi (H1 & H2 & H3) Hh. split; [|split].
  - intros g. destruct (decide (h = g)) as [->|N]; [done|]. rewrite lookup_partial_alter_ne by done. apply H1.
  - intros g Hg. destruct (decide (h = g)) as [->|N]; [by rewrite !lookup_partial_alter|].
    rewrite !lookup_partial_alter_ne; [by apply H2|done|]. intros E. by apply N, Hi.
  - intros g. destruct (decide (f h = g)) as [<-|N]; [by exists h|]. rewrite lookup_partial_alter_ne by done. apply H3.
Qed.

Lemma oks_ren A f l1 l2 : inj_on A f → Forall2 (ren f) l1 l2 → Forall (λ x, rd x ∈ A ∧ wr x ∈ A) l1 →
  ∀ w1 w2 w1', wrel A f w1 w2 → oks w1 l1 w1' → ∃ w2', oks w2 l2 w2' ∧ wrel A f w1' w2'.
Proof.
  intros Hi. induction 1 as [|[k g] [k' g'] l1 l2 Hx _ IH]; intros Hl w1 w2 w1' Hw H.
  - apply oks_nil in H as ->. exists w2. split; [by apply oks_nil|done].
  - apply Forall_cons in Hl as [[Hr Hwr] Hl]. apply oks_cons in H as (w3 & (v & Hv & ->)%direct_ok & H).
    destruct (IH Hl _ (partial_alter (λ _, v) (wr (k', g')) w2) _ ltac:(rewrite (ren_wr _ _ _ Hx); by apply (wrel_alter A f)) H) as (w2' & H2 & Hw').
    exists w2'. split; [|done]. apply oks_cons. eexists. split; [|done]. apply direct_ok. exists v. split; [|done].
    rewrite (ren_rd _ _ _ Hx). destruct Hw as (_ & -> & _); [|done]. by apply (ren_eff _ _ _ _ _ Hx).
Qed.

Lemma wrel_size A f w1 w2 : inj_on A f → wrel A f w1 w2 → size w2 = size w1.
Proof.
  intros Hi (H1 & H2 & H3). change (length (map_to_list w2) = length (map_to_list w1)). rewrite <- (fmap_length fst (map_to_list w2)), <- (fmap_length fst (map_to_list w1)).
  rewrite <- (fmap_length f (map_to_list w1).*1). apply Permutation_length. apply NoDup_Permutation.
  - apply NoDup_fst_map_to_list.
  - assert (∀ h, h ∈ (map_to_list w1).*1 → h ∈ A) as Ha.
    { intros h ([h' m] & -> & Hm%elem_of_map_to_list)%elem_of_list_fmap. apply H1. eauto. }
    pose proof (NoDup_fst_map_to_list w1) as Hnd. revert Hnd Ha. generalize (map_to_list w1).*1. intros l Hnd Ha.
    induction Hnd as [|h l Hh _ IH]; [constructor|]. cbn. constructor; [|apply IH; intros; apply Ha; by right].
    intros (h' & E & Hh')%elem_of_list_fmap. apply Hi in E; [by subst|apply Ha; by left|apply Ha; by right].
  - intros g. rewrite !elem_of_list_fmap. split.
    + intros ([g' m] & -> & Hm%elem_of_map_to_list). cbn. destruct (H3 g' ltac:(eauto)) as (h & Hh & ->). exists h. split; [done|].
      rewrite H2 in Hm by done. apply elem_of_list_fmap. exists (h, m). split; [done|]. by apply elem_of_map_to_list.
    + intros (h & -> & ([h' m] & -> & Hm%elem_of_map_to_list)%elem_of_list_fmap). cbn. exists (f h', m). split; [done|].
      apply elem_of_map_to_list. rewrite H2; [done|]. apply H1. eauto.
Qed.

(** * What a run records *)
Notation kops bf T := ((λ x : tagged, CRec (bf x.1) x.2.1) <$> T).
Notation kres T := ((λ x : tagged, Ok (Some x.2.2)) <$> T).

(** The calls [ds] are the calls [l] of a system that had made [dn]. *)
Fixpoint insts (dn : list (crec * handle)) (l : list scmd) (ds : list (crec * handle)) : Prop :=
  match l, ds with
  | [], [] => True
  | c :: l, (k, g) :: ds => inst (made dn) c = Some k ∧ insts (dn ++ [(k, g)]) l ds
  | _, _ => False
  end.

(** The known entities that a call uses, and those that it changes. *)
Definition uses_known (c : scmd) (h : handle) : Prop :=
  match c with SCreate _ => False | SClone x | SSet x _ _ | SRemove x _ | SDestroy x => x = RKnown h end.
Definition writes_known (c : scmd) (h : handle) : Prop :=
  match c with SCreate _ | SClone _ => False | SSet x _ _ | SRemove x _ | SDestroy x => x = RKnown h end.
Definition scmd_ok (known : list handle) (c : scmd) : Prop :=
  (∀ h, uses_known c h → h ∈ known) ∧
  match c with SCreate args => NoDup args.*1 ∧ u_ent U ∉ args.*1 | SSet _ c _ | SRemove _ c => c ≠ u_ent U | _ => True end.

Lemma made_app l l' : made (l ++ l') = made l ++ made l'.
Proof. unfold made. by rewrite filter_app, fmap_app. Qed.
Lemma inst_usable own known c k : inst own c = Some k → scmd_ok known c → usable U k.
Proof.
  intros E [H1 H2]. destruct c as [args|x|x c v|x c|x]; cbn in E, H2 |- *; [injection E as <-; done|..];
    (destruct (resolve own x) as [h|] eqn:Er; [|done]); injection E as <-; done.
Qed.

Lemma run_trace i bf nb K c c' : rtc (rec_step U i bf) c c' → rec_done c' →
  (∀ j, j < length (sc_tasks c) → bf j < nb) →
  (∀ (j : nat) td dn, sc_tasks c !! j = Some (STask td dn) → Forall (scmd_ok K) td) →
  ∃ T, run_cops U i (kops bf T) (sc_state c) = (sc_state c', kres T) ∧
    (∀ (j : nat) td dn, sc_tasks c !! j = Some (STask td dn) → sc_tasks c' !! j = Some (STask [] (dn ++ sel j T)) ∧ insts dn td (sel j T)) ∧
    length (sc_tasks c') = length (sc_tasks c) ∧ (∀ x, x ∈ T → x.1 < length (sc_tasks c)) ∧
    length T = sum_list (length ∘ st_todo <$> sc_tasks c) ∧
    all_permitted U nb (kops bf T).
Proof.
  intros Hr Hd. induction Hr as [c|c c1 c' Hs _ IH]; intros Hbf Hok.
  - exists []. split; [done|]. split; [|split; [done|split; [by intros ? ?%elem_of_nil|]]].
    + intros j td dn Hj. unfold rec_done in Hd. pose proof (proj1 (Forall_lookup _ _) Hd _ _ Hj) as E. cbn in E. subst td.
      split; [|done]. cbn. by rewrite app_nil_r.
    + split; [|constructor]. unfold rec_done in Hd. clear Hbf Hok. induction Hd as [|t l Ht _ IHl]; [done|]. cbn. by rewrite Ht.
  - inversion Hs as [? j a todo dn k cs' g Hj Hi Hrec]; subst. set (ts := <[j:=STask todo (dn ++ [(k, g)])]> (sc_tasks c)) in *.
    assert (length ts = length (sc_tasks c)) as El by apply insert_length.
    assert (j < length (sc_tasks c)) as Hlt by (by eapply lookup_lt_Some).
    assert (ts !! j = Some (STask todo (dn ++ [(k, g)]))) as Hj' by (by apply list_lookup_insert).
    pose proof (Hok _ _ _ Hj) as Ho. apply Forall_cons in Ho as [Ho Hos].
    destruct (IH Hd) as (T & E & Ht & Hl & Hin & Hn & Hp).
    + cbn. by rewrite El.
    + cbn. intros j' td dn' Hj1. destruct (decide (j = j')) as [<-|N].
      * rewrite Hj' in Hj1. by injection Hj1 as <- <-.
      * unfold ts in Hj1. rewrite list_lookup_insert_ne in Hj1 by done. by eapply Hok.
    + cbn [sc_tasks sc_state] in *. exists ((j, (k, g)) :: T). split; [|split; [|split; [congruence|split; [|split]]]].
      * cbn. unfold run_cop, bind. rewrite Hrec. cbn. by rewrite E.
      * intros j' td dn' Hj1. rewrite sel_cons. cbn [fst snd]. case_decide as N.
        -- subst j'. rewrite Hj in Hj1. injection Hj1 as <- <-. destruct (Ht _ _ _ Hj') as [H1 H2]. rewrite H1, <- app_assoc. done.
        -- apply Ht. unfold ts. by rewrite list_lookup_insert_ne.
      * intros x [->|Hx]%elem_of_cons; [done|]. rewrite <- El. by apply Hin.
      * cbn [length]. rewrite Hn. unfold ts. clear -Hj. revert j Hj. induction (sc_tasks c) as [|t l IH]; intros [|j] Hj; cbn in Hj |- *; [done|done|..].
        -- injection Hj as ->. cbn. lia.
        -- specialize (IH j Hj). cbn in IH. by rewrite <- IH, Nat.add_succ_r.
      * cbn. constructor; [|done]. split; [by apply Hbf|]. by eapply inst_usable.
Qed.
End order.
