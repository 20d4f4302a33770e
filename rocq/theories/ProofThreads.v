(** threads_given_birth_inds: termination (C01) and the canonical decomposition
    (C02). *)
From Verif Require Import Base ModelRun ModelData ProofBase Spec.

(** ** Termination *)
(** With [n] unlabelled points at most [n] more iterations succeed, and the
    next one fails the assertion. *)
Lemma follow_fuel : forall fuel b lab cur labels,
    length labels = length b ->
    (countb (fun o => negb (is_some o)) labels < fuel)%nat ->
    follow fuel b lab cur labels <> Raise OutOfFuel.
Proof.
  induction fuel as [|f IH]; intros b lab cur labels Hlen Hf; simpl; [lia|].
  destruct (where_ (Z.eqb (Z.of_nat cur)) b) as [|nxt r] eqn:Hw; [congruence|].
  assert (Hn : (nxt < length b)%nat).
  { apply (proj1 (in_where _ (Z.eqb (Z.of_nat cur)) 0 b nxt)). rewrite Hw; left; auto. }
  destruct (nth nxt labels None) eqn:He; [congruence|].
  apply IH.
  - rewrite upd_length; auto.
  - pose proof (countb_upd _ (fun o => negb (is_some o)) (Some lab) None labels nxt ltac:(lia)) as Hc.
    rewrite He in Hc. simpl in Hc. lia.
Qed.

Lemma follow_length : forall fuel b lab cur labels labels',
    follow fuel b lab cur labels = Ok labels' -> length labels' = length labels.
Proof.
  induction fuel as [|f IH]; intros b lab cur labels labels'; simpl;
    destruct (where_ (Z.eqb (Z.of_nat cur)) b) as [|nxt r]; try congruence.
  destruct (nth nxt labels None); [congruence|].
  intros H. apply IH in H. rewrite H, upd_length; auto.
Qed.

Lemma label_thread_len : forall b st s st',
    label_thread b st s = Ok st' -> length (fst st') = length (fst st).
Proof.
  intros b [L num] s st'. unfold label_thread. simpl.
  destruct (nth s L None); [congruence|].
  destruct (follow (length b) b num s (upd s (Some num) L)) eqn:Hf; simpl; [|congruence].
  inversion 1; subst. simpl. apply follow_length in Hf. rewrite Hf, upd_length; auto.
Qed.

Lemma label_thread_fuel : forall b st s,
    length (fst st) = length b -> (s < length b)%nat ->
    label_thread b st s <> Raise OutOfFuel.
Proof.
  intros b [L num] s Hlen Hs. unfold label_thread. simpl in *.
  destruct (nth s L None) eqn:He; [congruence|].
  assert (Hf : follow (length b) b num s (upd s (Some num) L) <> Raise OutOfFuel).
  { apply follow_fuel; [rewrite upd_length; auto|].
    pose proof (countb_upd _ (fun o => negb (is_some o)) (Some num) None L s ltac:(lia)) as Hc.
    rewrite He in Hc. simpl in Hc.
    pose proof (countb_le _ (fun o => negb (is_some o)) L). lia. }
  destruct (follow (length b) b num s (upd s (Some num) L)); simpl; congruence.
Qed.

Lemma start_points_lt : forall b i, In i (start_points b) -> (i < length b)%nat.
Proof.
  intros b i. unfold start_points. destruct (thread_start_inds b) as [|u t]; simpl; [tauto|].
  intros H. apply in_app_or in H as [H|H].
  - apply (in_where _ _ 0) in H. tauto.
  - apply in_flat_map in H as [m [_ H]].
    assert (H' : In i (where_ (Z.eqb m) b)) by (destruct (where_ (Z.eqb m) b); simpl in *; auto).
    apply (in_where _ _ 0) in H'. tauto.
Qed.

Lemma foldM_label_fuel : forall b l st,
    length (fst st) = length b -> (forall s, In s l -> (s < length b)%nat) ->
    foldM (label_thread b) l st <> Raise OutOfFuel /\
    (forall st', foldM (label_thread b) l st = Ok st' -> length (fst st') = length b).
Proof.
  induction l as [|s t IH]; intros st Hlen Hs; simpl.
  - split; [congruence|]. inversion 1; subst; auto.
  - pose proof (label_thread_fuel b st s Hlen (Hs s (or_introl eq_refl))) as Hf.
    destruct (label_thread b st s) as [st1|e] eqn:He; simpl; [|split; congruence].
    apply IH; [|intros; apply Hs; right; auto].
    apply label_thread_len in He. congruence.
Qed.

Lemma choice_not_fuel : forall E A (l : list A) (w : world E),
    fst (choice l w) <> Raise OutOfFuel.
Proof.
  intros. destruct l; simpl; unfold wbind, below; simpl; [congruence|].
  destruct (r_below E _ _); simpl; congruence.
Qed.

Lemma assign_unlabelled_fuel : forall E inds L (w : world E),
    fst (wfoldM assign_unlabelled inds L w) <> Raise OutOfFuel.
Proof.
  induction inds as [|i t IH]; intros L w; simpl; [cbv; congruence|].
  unfold wbind at 1. unfold assign_unlabelled at 1. unfold wbind at 1.
  match goal with |- context [choice ?p w] => pose proof (choice_not_fuel E Z p w) as Hc;
    destruct (choice p w) as [[x|e] w'] end; simpl in *; auto; congruence.
Qed.

Theorem threads_terminate : forall E b (w : world E),
    fst (threads_given_birth_inds b w) <> Raise OutOfFuel.
Proof.
  intros. unfold threads_given_birth_inds.
  destruct (foldM_label_fuel b (start_points b) (repeat None (length b), 0)) as [H1 H2].
  { simpl. apply repeat_length. }
  { apply start_points_lt. }
  unfold wlift, wbind at 1.
  destruct (foldM (label_thread b) (start_points b) (repeat None (length b), 0)) as [[L num]|e];
    [|simpl; congruence].
  simpl fst. clear H1 H2. unfold wbind at 1.
  destruct (forallb is_some L).
  - simpl. unfold wbind, wassert, wlift, assertb.
    destruct (forallb is_some L); simpl; [|congruence].
    destruct (list_eqb _ _); simpl; congruence.
  - unfold wbind, warn, get_state, seed, set_state. simpl.
    match goal with |- context [wfoldM assign_unlabelled ?i ?l ?w0] =>
      pose proof (assign_unlabelled_fuel E i l w0) as Hf;
      destruct (wfoldM assign_unlabelled i l w0) as [[L'|e] w'] end; simpl in *; [|congruence].
    unfold wassert, wlift, assertb.
    destruct (forallb is_some L'); simpl; [|congruence].
    destruct (list_eqb _ _); simpl; congruence.
Qed.

(** ** Canonical decomposition *)
Definition nxt (b : list Z) (c : nat) : option nat :=
  hd_error (where_ (Z.eqb (Z.of_nat c)) b).

Lemma where_first : forall m b i,
    hd_error (where_ (Z.eqb m) b) = Some i <->
    (i < length b)%nat /\ nth i b 0 = m /\ forall k, (k < i)%nat -> nth k b 0 <> m.
Proof.
  intros. pose proof (where_sorted _ (Z.eqb m) b) as Hs.
  pose proof (in_where _ (Z.eqb m) 0 b) as Hin.
  destruct (where_ (Z.eqb m) b) as [|h t] eqn:Hw; simpl.
  - split; [congruence|]. intros (H1 & H2 & _). exfalso.
    apply (proj2 (Hin i)). split; auto. apply Z.eqb_eq; auto.
  - inversion Hs; subst. rewrite Forall_forall in H2.
    destruct (proj1 (Hin h) (or_introl eq_refl)) as [H3 H4]. apply Z.eqb_eq in H4.
    split.
    + inversion 1; subst. repeat split; auto. intros k Hk He.
      assert (Hk' : In k (i :: t)) by (apply Hin; split; [lia|apply Z.eqb_eq; auto]).
      destruct Hk' as [->|Hk']; [lia|]. apply H2 in Hk'. lia.
    + intros (H5 & H6 & H7). f_equal.
      assert (Hi : In i (h :: t)) by (apply Hin; split; [lia|apply Z.eqb_eq; auto]).
      destruct Hi as [->|Hi]; auto. apply H2 in Hi. exfalso. apply (H7 h); auto; lia.
Qed.

Lemma nxt_spec : forall b c j,
    nxt b c = Some j <->
    (j < length b)%nat /\ nth j b 0 = Z.of_nat c /\
    forall k, (k < j)%nat -> nth k b 0 <> Z.of_nat c.
Proof. intros. apply where_first. Qed.

Inductive reach (b : list Z) : nat -> nat -> Prop :=
| reach0 : forall c, reach b c c
| reachS : forall c j x, nxt b c = Some j -> reach b j x -> reach b c x.

Lemma reach_snoc : forall b c x y, reach b c x -> nxt b x = Some y -> reach b c y.
Proof.
  induction 1; intros.
  - econstructor; eauto. constructor.
  - econstructor; eauto.
Qed.
Lemma reach_inv_last : forall b c x, reach b c x ->
    c = x \/ exists y, reach b c y /\ nxt b y = Some x.
Proof.
  induction 1 as [|c j x H1 H2 IH]; auto. right.
  destruct IH as [->|[y [H3 H4]]].
  - exists c. split; auto. constructor.
  - exists y. split; auto. econstructor; eauto.
Qed.

Lemma start_dec : forall b i, {starts_thread b i} + {~ starts_thread b i}.
Proof.
  intros. unfold starts_thread.
  destruct (lt_dec i (length b)) as [Hi|Hi]; [|right; tauto].
  destruct (Z.eq_dec (nth i b 0) (-1)) as [He|He]; [left; auto|].
  destruct (existsb (fun j => nth j b 0 =? nth i b 0) (seq 0 i)) eqn:Hx.
  - left. split; auto. right. apply existsb_exists in Hx as [j [H1 H2]].
    apply in_seq in H1. apply Z.eqb_eq in H2. exists j. split; auto; lia.
  - right. intros [_ [H|[j [H1 H2]]]]; [auto|].
    rewrite <- not_true_iff_false in Hx. apply Hx. apply existsb_exists.
    exists j. split; [apply in_seq; lia|apply Z.eqb_eq; auto].
Qed.

Section Valid.
  Variable b : list Z.
  Hypothesis Hv : valid_births b.
  Let n := length b.

  Lemma nxt_gt : forall c j, nxt b c = Some j -> (c < j < n)%nat.
  Proof.
    intros c j H. apply nxt_spec in H as (H1 & H2 & _).
    specialize (Hv j H1). unfold n. lia.
  Qed.
  Lemma nxt_not_start : forall c j, nxt b c = Some j -> ~ starts_thread b j.
  Proof.
    intros c j H [_ [Hs|[k [Hk He]]]]; apply nxt_spec in H as (H1 & H2 & H3).
    - lia.
    - apply (H3 k); auto. congruence.
  Qed.
  Lemma not_start_nxt : forall j, (j < n)%nat -> ~ starts_thread b j ->
      0 <= nth j b 0 /\ nxt b (Z.to_nat (nth j b 0)) = Some j.
  Proof.
    intros j Hj Hs. pose proof (Hv j Hj).
    assert (nth j b 0 <> -1) by (intros He; apply Hs; split; auto).
    split; [lia|]. apply nxt_spec. rewrite Z2Nat.id by lia. repeat split; auto.
    intros k Hk He. apply Hs. split; auto. right. eauto.
  Qed.

  Lemma reach_le : forall c x, reach b c x -> (c <= x)%nat.
  Proof. induction 1 as [|c j x H1 H2 IH]; auto. apply nxt_gt in H1. lia. Qed.
  Lemma reach_lt_n : forall c x, reach b c x -> (c < n)%nat -> (x < n)%nat.
  Proof. induction 1 as [|c j x H1 H2 IH]; auto. apply nxt_gt in H1. intuition. Qed.

  Lemma root_exists : forall i, (i < n)%nat -> exists s, starts_thread b s /\ reach b s i.
  Proof.
    induction i as [i IH] using lt_wf_ind. intros Hi.
    destruct (start_dec b i) as [Hs|Hs].
    - exists i. split; auto. constructor.
    - destruct (not_start_nxt i Hi Hs) as [H1 H2]. pose proof (nxt_gt _ _ H2).
      destruct (IH (Z.to_nat (nth i b 0))) as [s [H3 H4]]; [lia|lia|].
      exists s. split; auto. eapply reach_snoc; eauto.
  Qed.
  Lemma root_unique : forall i s s', starts_thread b s -> starts_thread b s' ->
      reach b s i -> reach b s' i -> s = s'.
  Proof.
    induction i as [i IH] using lt_wf_ind. intros s s' Hs Hs' H H'.
    apply reach_inv_last in H as [->|[y [H1 H2]]];
      apply reach_inv_last in H' as [->|[y' [H1' H2']]]; auto.
    - exfalso. eapply nxt_not_start; eauto.
    - exfalso. eapply nxt_not_start; eauto.
    - pose proof (nxt_gt _ _ H2).
      assert (y = y').
      { apply nxt_spec in H2 as (_ & H2 & _). apply nxt_spec in H2' as (_ & H2' & _). lia. }
      subst y'. apply (IH y); auto; lia.
  Qed.

  Lemma follow_reach : forall fuel lab c L,
      (n - c <= fuel)%nat -> length L = n ->
      (forall x, reach b c x -> x <> c -> nth x L None = None) ->
      exists L', follow fuel b lab c L = Ok L' /\ length L' = n /\
        (forall x, reach b c x -> x <> c -> nth x L' None = Some lab) /\
        (forall x, ~ (reach b c x /\ x <> c) -> nth x L' None = nth x L None).
  Proof.
    assert (Hend : forall c, nxt b c = None -> forall x, reach b c x -> x = c).
    { intros c Hc x H. inversion H; subst; auto. congruence. }
    induction fuel as [|f IH]; intros lab c L Hf HL Hnone; simpl.
    - destruct (where_ (Z.eqb (Z.of_nat c)) b) as [|j r] eqn:Hw.
      + exists L. repeat split; auto. intros x H1 H2. exfalso. apply H2.
        apply (Hend c); auto. unfold nxt. rewrite Hw; auto.
      + assert (Hj : nxt b c = Some j) by (unfold nxt; rewrite Hw; auto).
        apply nxt_gt in Hj. lia.
    - destruct (where_ (Z.eqb (Z.of_nat c)) b) as [|j r] eqn:Hw.
      + exists L. repeat split; auto. intros x H1 H2. exfalso. apply H2.
        apply (Hend c); auto. unfold nxt. rewrite Hw; auto.
      + assert (Hj : nxt b c = Some j) by (unfold nxt; rewrite Hw; auto).
        pose proof (nxt_gt _ _ Hj) as Hcj.
        rewrite Hnone by (try lia; econstructor; eauto; constructor).
        destruct (IH lab j (upd j (Some lab) L)) as (L' & H1 & H2 & H3 & H4).
        * lia.
        * rewrite upd_length; auto.
        * intros x Hx Hne. rewrite nth_upd_other by auto. apply Hnone.
          -- econstructor; eauto.
          -- apply reach_le in Hx. lia.
        * exists L'. repeat split; auto.
          -- intros x Hx Hne. destruct (Nat.eq_dec x j) as [->|Hxj].
             ++ rewrite H4 by tauto. apply nth_upd_same. lia.
             ++ apply H3; auto. inversion Hx; subst; [congruence|].
                replace j with j0 by congruence. auto.
          -- intros x Hx. rewrite H4.
             ++ apply nth_upd_other. intros ->. apply Hx. split; [|lia].
                econstructor; eauto. constructor.
             ++ intros [H5 H6]. apply Hx. split; [econstructor; eauto|].
                apply reach_le in H5. lia.
  Qed.

  Lemma reach_dec : forall c x, {reach b c x} + {~ reach b c x}.
  Proof.
    intros c x. revert c.
    induction x as [x IH] using lt_wf_rec. intros c.
    destruct (Nat.eq_dec c x) as [->|Hne]; [left; constructor|].
    destruct (lt_dec x n) as [Hx|Hx].
    - destruct (start_dec b x) as [Hs|Hs].
      + right. intros H. apply reach_inv_last in H as [H|[y [_ H]]]; [congruence|].
        eapply nxt_not_start; eauto.
      + destruct (not_start_nxt x Hx Hs) as [H1 H2]. pose proof (nxt_gt _ _ H2).
        destruct (IH (Z.to_nat (nth x b 0)) ltac:(lia) c) as [H3|H3].
        * left. eapply reach_snoc; eauto.
        * right. intros H4. apply reach_inv_last in H4 as [H4|[y [H4 H5]]]; [congruence|].
          apply nxt_spec in H5 as (_ & H5 & _). apply H3.
          rewrite H5, Nat2Z.id. auto.
    - right. intros H. apply reach_inv_last in H as [H|[y [_ H]]]; [congruence|].
      apply nxt_gt in H. lia.
  Qed.

  (** Invariant of the labelling loop, [ds] being the starts done so far. *)
  Definition lab_inv (ds : list nat) (st : list (option Z) * Z) : Prop :=
    length (fst st) = n /\ snd st = Z.of_nat (length ds) /\
    (forall k i, (k < length ds)%nat -> reach b (nth k ds 0%nat) i ->
                 nth i (fst st) None = Some (Z.of_nat k)) /\
    (forall i, (forall s, In s ds -> ~ reach b s i) -> nth i (fst st) None = None).

  Lemma label_thread_inv : forall ds st s,
      lab_inv ds st -> starts_thread b s -> (forall d, In d ds -> starts_thread b d) ->
      ~ In s ds ->
      exists st', label_thread b st s = Ok st' /\ lab_inv (ds ++ [s]) st'.
  Proof.
    intros ds [L num] s (H1 & H2 & H3 & H4) Hs Hds Hnin. simpl in *.
    assert (Hno : forall i, reach b s i -> forall d, In d ds -> ~ reach b d i).
    { intros i Hi d Hd Hd'. apply Hnin. replace s with d; auto.
      apply (root_unique i); auto. }
    assert (Hsn : (s < n)%nat) by (destruct Hs; auto).
    rewrite H4 by (apply Hno; constructor).
    destruct (follow_reach n num s (upd s (Some num) L)) as (L' & F1 & F2 & F3 & F4).
    { lia. } { rewrite upd_length; auto. }
    { intros x Hx Hne. rewrite nth_upd_other by auto. apply H4. apply Hno; auto. }
    unfold n in F1. rewrite F1. simpl. eexists. split; [reflexivity|].
    repeat split; simpl; auto.
    - rewrite app_length. simpl. lia.
    - intros k i Hk Hi. rewrite app_length in Hk. simpl in Hk.
      destruct (Nat.eq_dec k (length ds)) as [->|Hkn].
      + rewrite app_nth2, Nat.sub_diag in Hi by lia. simpl in Hi.
        destruct (Nat.eq_dec i s) as [->|His].
        * rewrite F4 by tauto. rewrite nth_upd_same by lia. congruence.
        * rewrite F3; auto. congruence.
      + rewrite app_nth1 in Hi by lia.
        assert (Hni : ~ reach b s i).
        { intros Hc. apply (Hno i Hc (nth k ds 0%nat)); auto. apply nth_In. lia. }
        rewrite F4 by tauto. rewrite nth_upd_other.
        * apply H3; auto. lia.
        * intros ->. apply Hni. constructor.
    - intros i Hi.
      assert (Hni : ~ reach b s i) by (apply Hi, in_or_app; right; left; auto).
      rewrite F4 by tauto. rewrite nth_upd_other by (intros ->; apply Hni; constructor).
      apply H4. intros d Hd. apply Hi, in_or_app; auto.
  Qed.

  Lemma foldM_label_inv : forall todo ds st,
      lab_inv ds st -> (forall s, In s (ds ++ todo) -> starts_thread b s) ->
      NoDup (ds ++ todo) ->
      exists st', foldM (label_thread b) todo st = Ok st' /\ lab_inv (ds ++ todo) st'.
  Proof.
    induction todo as [|s t IH]; intros ds st Hinv Hs Hnd; simpl.
    - exists st. rewrite app_nil_r. auto.
    - destruct (label_thread_inv ds st s) as (st1 & H1 & H2); auto.
      + apply Hs, in_or_app; right; left; auto.
      + intros; apply Hs, in_or_app; auto.
      + apply NoDup_remove_2 in Hnd. intros Hc. apply Hnd, in_or_app; auto.
      + rewrite H1. simpl. replace (ds ++ s :: t) with ((ds ++ [s]) ++ t) in *
          by (rewrite <- app_assoc; auto).
        apply IH; auto.
  Qed.

  (** *** The list of start points *)
  Lemma in_tl_where : forall m i,
      In i (tl (where_ (Z.eqb m) b)) <->
      (i < n)%nat /\ nth i b 0 = m /\ exists j, (j < i)%nat /\ nth j b 0 = m.
  Proof.
    intros. pose proof (where_sorted _ (Z.eqb m) b) as Hs.
    pose proof (in_where _ (Z.eqb m) 0 b) as Hin.
    destruct (where_ (Z.eqb m) b) as [|h t] eqn:Hw; simpl.
    - split; [tauto|]. intros (H1 & H2 & _).
      apply (proj2 (Hin i)). split; auto. apply Z.eqb_eq; auto.
    - inversion Hs; subst. rewrite Forall_forall in H2.
      destruct (proj1 (Hin h) (or_introl eq_refl)) as [H3 H4]. apply Z.eqb_eq in H4.
      split.
      + intros Hi. destruct (proj1 (Hin i) (or_intror Hi)) as [H5 H6].
        apply Z.eqb_eq in H6. repeat split; auto. exists h. split; auto.
      + intros (H5 & H6 & j & H7 & H8).
        assert (Hi : In i (h :: t)) by (apply Hin; split; [auto|apply Z.eqb_eq; auto]).
        destruct Hi as [->|Hi]; auto.
        assert (Hj : In j (i :: t)) by (apply Hin; split; [unfold n in *; lia|apply Z.eqb_eq; auto]).
        destruct Hj as [->|Hj]; [lia|]. apply H2 in Hj. lia.
  Qed.

  Lemma count_gt1 : forall m i, In i (tl (where_ (Z.eqb m) b)) -> (1 < count_in b m)%nat.
  Proof.
    intros m i H. unfold count_in. rewrite <- where_length.
    destruct (where_ (Z.eqb m) b) as [|h [|h' t]]; simpl in *; try tauto. lia.
  Qed.

  Lemma unique_head : b <> [] -> exists t, unique b = -1 :: t.
  Proof.
    intros Hne. assert (H0 : In (-1) b).
    { assert (Hl : (0 < length b)%nat) by (destruct b; [congruence|simpl; lia]).
      pose proof (Hv 0%nat Hl). replace (-1) with (nth 0 b 0) by lia.
      apply nth_In; auto. }
    pose proof (unique_sorted b) as Hs. pose proof (in_unique b) as Hin.
    destruct (unique b) as [|u t].
    - apply Hin in H0. destruct H0.
    - exists t. f_equal. inversion Hs as [|? ? _ Hf]; subst. rewrite Forall_forall in Hf.
      assert (Hu : In u b) by (apply Hin; left; auto).
      destruct (In_nth _ _ 0 Hu) as [k [Hk <-]]. pose proof (Hv k Hk).
      destruct (proj2 (Hin (-1)) H0) as [H1|H1]; auto. apply Hf in H1. lia.
  Qed.

  Lemma start_points_eq : b <> [] -> exists t,
      StronglySorted Z.lt (-1 :: t) /\ (forall m, In m t <-> In m b /\ m <> -1) /\
      unique b = -1 :: t /\
      start_points b = where_ (Z.eqb (-1)) b ++
        flat_map (fun m => tl (where_ (Z.eqb m) b))
                 (filter (fun u => (1 <? count_in b u)%nat) t).
  Proof.
    intros Hne. destruct (unique_head Hne) as [t Ht]. exists t.
    pose proof (unique_sorted b) as Hs. rewrite Ht in Hs.
    repeat split; auto.
    - apply in_unique. rewrite Ht. right; auto.
    - inversion Hs as [|? ? _ Hf]; subst. rewrite Forall_forall in Hf. apply Hf in H. lia.
    - intros [H1 H2]. apply in_unique in H1. rewrite Ht in H1. destruct H1; congruence.
    - unfold start_points, thread_start_inds. rewrite Ht. reflexivity.
  Qed.

  Lemma in_start_points : b <> [] -> forall i,
      In i (start_points b) <-> starts_thread b i.
  Proof.
    intros Hne i. destruct (start_points_eq Hne) as (t & _ & Hin & _ & ->).
    rewrite in_app_iff, (in_where _ _ 0), in_flat_map. unfold starts_thread. fold n.
    split.
    - intros [[H1 H2]|[m [H1 H2]]].
      + apply Z.eqb_eq in H2. auto.
      + apply in_tl_where in H2 as (H3 & H4 & j & H5 & H6). split; auto.
        right. exists j. split; auto. congruence.
    - intros [H1 [H2|[j [H2 H3]]]].
      + left. split; auto. apply Z.eqb_eq; auto.
      + destruct (Z.eq_dec (nth i b 0) (-1)) as [He|He];
          [left; split; auto; apply Z.eqb_eq; auto|].
        right. exists (nth i b 0).
        assert (Ht : In i (tl (where_ (Z.eqb (nth i b 0)) b))) by (apply in_tl_where; eauto).
        split; auto. apply filter_In. split.
        * apply Hin. split; auto. apply nth_In; auto.
        * apply Nat.ltb_lt. eapply count_gt1; eauto.
  Qed.

  Lemma start_points_sorted : b <> [] -> StronglySorted (starts_before b) (start_points b).
  Proof.
    intros Hne. destruct (start_points_eq Hne) as (t & Hs & Hin & _ & ->).
    inversion Hs as [|? ? Hst _]; subst.
    assert (Hsame : forall m l, (forall i, In i l -> nth i b 0 = m) ->
                                StronglySorted lt l -> StronglySorted (starts_before b) l).
    { intros m l Hl. apply ssorted_weaken. intros x y Hx Hy Hxy. right.
      split; auto. rewrite !Hl; auto. }
    apply ssorted_app.
    - apply (Hsame (-1)); [|apply where_sorted]. intros i Hi.
      apply (in_where _ _ 0) in Hi as [_ Hi]. apply Z.eqb_eq in Hi; auto.
    - assert (Hf : StronglySorted Z.lt (filter (fun u => (1 <? count_in b u)%nat) t))
        by (apply ssorted_filter; auto).
      revert Hf. generalize (filter (fun u => (1 <? count_in b u)%nat) t).
      induction 1 as [|m l Hl IH F]; simpl; [constructor|].
      apply ssorted_app; auto.
      + apply (Hsame m).
        * intros i Hi. apply in_tl_where in Hi. tauto.
        * pose proof (where_sorted _ (Z.eqb m) b) as Hw.
          destruct (where_ (Z.eqb m) b); simpl; [constructor|inversion Hw; auto].
      + intros x y Hx Hy. left. apply in_tl_where in Hx as (_ & -> & _).
        apply in_flat_map in Hy as [m' [Hm' Hy]]. apply in_tl_where in Hy as (_ & -> & _).
        rewrite Forall_forall in F. auto.
    - intros x y Hx Hy. left.
      apply (in_where _ _ 0) in Hx as [_ Hx]. apply Z.eqb_eq in Hx. rewrite <- Hx.
      apply in_flat_map in Hy as [m' [Hm' Hy]]. apply in_tl_where in Hy as (Hy & He & _).
      apply filter_In in Hm' as [Hm' _]. apply Hin in Hm' as [_ Hm'].
      pose proof (Hv y Hy). lia.
  Qed.

  Lemma starts_before_irrefl : forall x, ~ starts_before b x x.
  Proof. unfold starts_before. intros; lia. Qed.
  Lemma start_points_NoDup : b <> [] -> NoDup (start_points b).
  Proof.
    intros Hne. pose proof (start_points_sorted Hne) as Hs.
    induction Hs as [|x l H IH F]; constructor; auto.
    rewrite Forall_forall in F. intros Hc. apply F in Hc. eapply starts_before_irrefl; eauto.
  Qed.

  Lemma counts_length : b <> [] ->
      nsum (thread_start_counts b) = length (start_points b).
  Proof.
    intros Hne. destruct (start_points_eq Hne) as (t & _ & _ & Hu & ->).
    unfold thread_start_counts. rewrite Hu. simpl firstn. simpl skipn.
    rewrite app_length, where_length. simpl nsum. unfold count_in at 1.
    f_equal. induction t as [|m t IH]; simpl; auto.
    assert (IHt : nsum (map pred (filter (fun c => (1 <? c)%nat) (map (count_in b) t))) =
      length (flat_map (fun m => tl (where_ (Z.eqb m) b))
                 (filter (fun u => (1 <? count_in b u)%nat) t))).
    { clear. induction t as [|m' t IH]; simpl; auto.
      destruct (1 <? count_in b m')%nat; simpl; auto.
      rewrite app_length, IH. f_equal. unfold count_in. rewrite <- where_length.
      destruct (where_ (Z.eqb m') b); auto. }
    destruct (1 <? count_in b m)%nat; simpl; auto.
    rewrite app_length, IHt. f_equal. unfold count_in. rewrite <- where_length.
    destruct (where_ (Z.eqb m) b); auto.
  Qed.

  Lemma somes_map_some : forall (L : list (option Z)) (f : nat -> Z) m,
      L = map (fun i => Some (f i)) m -> somes L = map f m.
  Proof.
    intros L f m ->. unfold somes. induction m; simpl; auto. rewrite <- IHm; auto.
  Qed.

  Theorem threads_canonical : forall E (w : world E), b <> [] ->
      exists labs, threads_given_birth_inds b w = (Ok labs, w) /\ canonical_threads b labs.
  Proof.
    intros E w Hne.
    destruct (foldM_label_inv (start_points b) [] (repeat None (length b), 0))
      as ([L num] & HF & I1 & I2 & I3 & I4).
    { repeat split; simpl; auto.
      - apply repeat_length.
      - intros; lia.
      - intros i _. destruct (lt_dec i (length b)).
        + apply nth_repeat.
        + apply nth_overflow. rewrite repeat_length. lia. }
    { simpl. intros. apply in_start_points; auto. }
    { simpl. apply start_points_NoDup; auto. }
    simpl in I1, I2, I3, I4. set (SP := start_points b) in *.
    assert (Hlab : forall i, (i < n)%nat -> exists k, (k < length SP)%nat /\
                     reach b (nth k SP 0%nat) i /\ nth i L None = Some (Z.of_nat k)).
    { intros i Hi. destruct (root_exists i Hi) as [s [H1 H2]].
      apply in_start_points in H1; auto. fold SP in H1. destruct (In_nth _ _ 0%nat H1) as [k [Hk He]].
      exists k. rewrite He. repeat split; auto. apply I3; auto. rewrite He; auto. }
    set (f i := match nth i L None with Some z => z | None => 0 end).
    assert (HL : L = map (fun i => Some (f i)) (seq 0 n)).
    { apply nth_ext' with (d := None).
      - rewrite map_length, seq_length; auto.
      - intros i Hi. rewrite nth_map_seq by lia. unfold f.
        destruct (Hlab i ltac:(lia)) as (k & _ & _ & ->). auto. }
    assert (Hall : forallb is_some L = true).
    { rewrite HL. apply forallb_forall. intros o Ho. apply in_map_iff in Ho as [i [<- _]]. auto. }
    pose proof (somes_map_some L f (seq 0 n) HL) as Hsome.
    assert (Hnth : forall i, (i < n)%nat -> nth i (somes L) 0 = f i).
    { intros i Hi. rewrite Hsome, nth_map_seq; auto. }
    assert (Hk : forall k, (k < length SP)%nat -> nth (nth k SP 0%nat) (somes L) 0 = Z.of_nat k).
    { intros k Hk. assert (Hs : starts_thread b (nth k SP 0%nat)).
      { apply in_start_points; auto. apply nth_In; auto. }
      rewrite Hnth by (destruct Hs; auto). unfold f.
      rewrite (I3 k); auto. constructor. }
    assert (Hin : forall x, In x (somes L) <-> 0 <= x < Z.of_nat (length SP)).
    { intros x. split.
      - rewrite Hsome. intros Hx. apply in_map_iff in Hx as [i [<- Hi]]. apply in_seq in Hi.
        destruct (Hlab i ltac:(lia)) as (k & H1 & _ & H2). unfold f. rewrite H2. lia.
      - intros Hx. assert (Hlt : (Z.to_nat x < length SP)%nat) by lia.
        pose proof (Hk (Z.to_nat x) Hlt) as He.
        rewrite Z2Nat.id in He by lia. rewrite <- He. apply nth_In.
        rewrite Hsome, map_length, seq_length.
        assert (Hs : starts_thread b (nth (Z.to_nat x) SP 0%nat)).
        { apply in_start_points; auto. apply nth_In; auto. }
        destruct Hs; auto. }
    exists (somes L). split.
    - unfold threads_given_birth_inds. fold SP. rewrite HF. unfold wlift, wbind. simpl.
      rewrite Hall. unfold wret, wassert, wlift, assertb. simpl.
      rewrite Hall. rewrite counts_length by auto. fold SP.
      rewrite (unique_zrange _ _ Hin). rewrite (proj2 (list_eqb_eq _ _) eq_refl). auto.
    - unfold canonical_threads. split; [|split].
      + rewrite Hsome, map_length, seq_length; auto.
      + intros i Hi Hs. destruct (not_start_nxt i Hi Hs) as [H1 H2].
        pose proof (nxt_gt _ _ H2).
        rewrite !Hnth by (unfold n in *; lia). unfold f.
        destruct (Hlab (Z.to_nat (nth i b 0)) ltac:(lia)) as (k & H3 & H4 & H5).
        rewrite H5. rewrite (I3 k i); auto. eapply reach_snoc; eauto.
      + exists SP. split; [|split; [|split]]; auto.
        * intros i. apply in_start_points; auto.
        * apply start_points_sorted; auto.
  Qed.
End Valid.

(** The specification determines the labels. *)
Lemma sorted_starts_unique : forall b s s',
    (forall i, In i s <-> starts_thread b i) -> (forall i, In i s' <-> starts_thread b i) ->
    StronglySorted (starts_before b) s -> StronglySorted (starts_before b) s' -> s = s'.
Proof.
  intros b s s' H H' Hs Hs'.
  assert (Hnd : forall l, StronglySorted (starts_before b) l -> NoDup l).
  { induction 1 as [|x l Hl IH F]; constructor; auto. intros Hc.
    rewrite Forall_forall in F. apply F in Hc. unfold starts_before in Hc. lia. }
  apply ssorted_perm_eq with (R := starts_before b); auto.
  - unfold starts_before. intros; lia.
  - apply NoDup_Permutation; auto. intros. rewrite H, H'. tauto.
Qed.

Theorem canonical_unique : forall b labs labs', valid_births b ->
    canonical_threads b labs -> canonical_threads b labs' -> labs = labs'.
Proof.
  intros b labs labs' Hv (H1 & H2 & S & H3 & H4 & H5 & _) (H1' & H2' & S' & H3' & H4' & H5' & _).
  assert (S = S') by (eapply sorted_starts_unique; eauto). subst S'.
  apply nth_ext' with (d := 0); [congruence|]. rewrite H1.
  induction i as [i IH] using lt_wf_ind. intros Hi.
  destruct (start_dec b i) as [Hs|Hs].
  - apply H3 in Hs. destruct (In_nth _ _ 0%nat Hs) as [k [Hk <-]].
    rewrite H5, H5'; auto.
  - rewrite H2, H2'; auto. pose proof (Hv i Hi).
    destruct (Z.eq_dec (nth i b 0) (-1)) as [He|He].
    + exfalso. apply Hs. split; auto.
    + apply IH; lia.
Qed.

(** More fuel changes nothing. *)
Lemma follow_more : forall f k b lab cur labels,
    follow f b lab cur labels <> Raise OutOfFuel ->
    follow (k + f) b lab cur labels = follow f b lab cur labels.
Proof.
  induction f as [|f IH]; intros k b lab cur labels H.
  - simpl in H. destruct (where_ (Z.eqb (Z.of_nat cur)) b) eqn:Hw; [|congruence].
    rewrite Nat.add_0_r. destruct k; simpl; rewrite Hw; auto.
  - rewrite Nat.add_succ_r. simpl in *.
    destruct (where_ (Z.eqb (Z.of_nat cur)) b) as [|nxt r]; auto.
    destruct (nth nxt labels None); auto.
Qed.

Theorem while_iterations : forall b lab cur labels k,
    length labels = length b -> (cur < length b)%nat -> nth cur labels None <> None ->
    follow (length b) b lab cur labels <> Raise OutOfFuel /\
    follow (k + length b) b lab cur labels = follow (length b) b lab cur labels.
Proof.
  intros b lab cur labels k Hl Hc Hs.
  assert (H : follow (length b) b lab cur labels <> Raise OutOfFuel).
  { apply follow_fuel; auto.
    destruct (nth cur labels None) as [x|] eqn:He; [|congruence].
    pose proof (countb_upd _ (fun o => negb (is_some o)) None None labels cur ltac:(lia)) as Hc'.
    rewrite He in Hc'. simpl in Hc'.
    pose proof (countb_le _ (fun o => negb (is_some o)) (upd cur None labels)) as Hle.
    rewrite upd_length in Hle. lia. }
  split; auto. apply follow_more; auto.
Qed.
