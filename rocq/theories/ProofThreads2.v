(** threads_given_birth_inds on arbitrary birth indexes (C76): the points which
    belong to a thread, and the ones which are assigned at random. *)
From Verif Require Import Base ModelRun ModelData ProofBase ProofMonad Spec ProofThreads.

(** Point [i] belongs to a thread: going back from each point to the one whose
    contour it replaces we come to the start of a thread. *)
Inductive has_thread (b : list Z) : nat -> Prop :=
| ht_start : forall i, starts_thread b i -> has_thread b i
| ht_next : forall i j, (i < length b)%nat -> ~ starts_thread b i ->
    nth i b 0 = Z.of_nat j -> has_thread b j -> has_thread b i.

Inductive steps (b : list Z) : nat -> nat -> nat -> Prop :=
| steps0 : forall c, steps b 0 c c
| stepsS : forall k c x y, steps b k c x -> nxt b x = Some y -> steps b (S k) c y.

Lemma steps_reach : forall b k c x, steps b k c x -> reach b c x.
Proof. induction 1; [constructor|eapply reach_snoc; eauto]. Qed.
Lemma steps_trans : forall b m x y k c, steps b k c x -> steps b m x y -> steps b (m + k) c y.
Proof. intros b m x y k c H1 H2. induction H2; simpl; auto. econstructor; eauto. Qed.
Lemma reach_steps : forall b c x, reach b c x -> exists k, steps b k c x.
Proof.
  induction 1 as [c|c j x H1 H2 [k IH]]; [exists 0%nat; constructor|].
  exists (k + 1)%nat. eapply steps_trans; [|exact IH]. econstructor; [constructor|auto].
Qed.
Lemma nxt_inj : forall b x y j, nxt b x = Some j -> nxt b y = Some j -> x = y.
Proof.
  intros b x y j H1 H2. apply nxt_spec in H1 as (_ & H1 & _).
  apply nxt_spec in H2 as (_ & H2 & _). lia.
Qed.
Lemma steps_unique : forall b k s x, steps b k s x -> starts_thread b s ->
    forall k' s', starts_thread b s' -> steps b k' s' x -> s = s' /\ k = k'.
Proof.
  intros b k s x H. induction H as [c|k c x y H IH Hn]; intros Hs k' s' Hs' H'.
  - inversion H'; subst; auto. exfalso. eapply nxt_not_start; eauto.
  - inversion H' as [|k2 c2 x2 y2 H2 Hn2]; subst.
    + exfalso. eapply nxt_not_start; eauto.
    + pose proof (nxt_inj _ _ _ _ Hn Hn2). subst x2.
      destruct (IH Hs k2 s' Hs' H2). split; auto.
Qed.

(** Points reached from a start. *)
Definition rooted (b : list Z) (c : nat) : Prop :=
  exists s, starts_thread b s /\ reach b s c.

Lemma rooted_has_thread : forall b i, rooted b i <-> has_thread b i.
Proof.
  intros b i. split.
  - intros (s & Hs & H). apply reach_steps in H as [k H].
    induction H as [c|k c x y H IH Hn]; [constructor; auto|].
    apply ht_next with (j := x); auto.
    + apply nxt_spec in Hn. tauto.
    + eapply nxt_not_start; eauto.
    + apply nxt_spec in Hn. tauto.
  - induction 1 as [i Hs|i j Hi Hs He H (s & H1 & H2)].
    + exists i. split; auto. constructor.
    + exists s. split; auto. eapply reach_snoc; eauto. apply nxt_spec. repeat split; auto.
      intros k Hk Hke. apply Hs. split; auto. right. exists k. split; auto. congruence.
Qed.
Lemma rooted_lt : forall b i, rooted b i -> (i < length b)%nat.
Proof.
  intros b i (s & Hs & H). apply reach_inv_last in H as [->|[y [_ H]]].
  - destruct Hs; auto.
  - apply nxt_spec in H. tauto.
Qed.
Lemma rooted_step : forall b c j, rooted b c -> nxt b c = Some j -> rooted b j.
Proof. intros b c j (s & H1 & H2) H. exists s. split; auto. eapply reach_snoc; eauto. Qed.
Lemma rooted_unique : forall b i s s', starts_thread b s -> starts_thread b s' ->
    reach b s i -> reach b s' i -> s = s'.
Proof.
  intros b i s s' Hs Hs' H H'. apply reach_steps in H as [k H]. apply reach_steps in H' as [k' H'].
  destruct (steps_unique b k s i H Hs k' s' Hs' H'). auto.
Qed.
Lemma rooted_acyclic : forall b c j x, rooted b c -> nxt b c = Some j -> reach b j x -> x <> c.
Proof.
  intros b c j x (s & Hs & H) Hn Hx ->. apply reach_steps in H as [k H].
  apply reach_steps in Hx as [m Hx].
  assert (H' : steps b (m + S k) s c) by (eapply steps_trans; eauto; econstructor; eauto).
  destruct (steps_unique b k s c H Hs _ s Hs H'). lia.
Qed.

Lemma follow_rooted : forall b fuel lab c L,
    rooted b c -> (countb (fun o => negb (is_some o)) L < fuel)%nat -> length L = length b ->
    (forall x, reach b c x -> x <> c -> nth x L None = None) ->
    exists L', follow fuel b lab c L = Ok L' /\ length L' = length b /\
      (forall x, reach b c x -> x <> c -> nth x L' None = Some lab) /\
      (forall x v, nth x L' None = Some v ->
         nth x L None = Some v \/ (v = lab /\ reach b c x)) /\
      (forall x v, nth x L None = Some v -> nth x L' None = Some v).
Proof.
  induction fuel as [|f IH]; intros lab c L Hr Hf HL Hnone; simpl; [lia|].
  destruct (where_ (Z.eqb (Z.of_nat c)) b) as [|j r] eqn:Hw.
  - exists L. repeat split; auto. intros x H1 H2. exfalso. apply H2.
    inversion H1; subst; auto. unfold nxt in H. rewrite Hw in H. discriminate.
  - assert (Hj : nxt b c = Some j) by (unfold nxt; rewrite Hw; auto).
    assert (Hjl : (j < length b)%nat) by (apply nxt_spec in Hj; tauto).
    pose proof (rooted_step b c j Hr Hj) as Hrj.
    assert (Hjc : j <> c) by (apply (rooted_acyclic b c j j); auto; constructor).
    assert (Hrcj : reach b c j) by (econstructor; eauto; constructor).
    assert (HNj : nth j L None = None) by (apply Hnone; auto).
    rewrite HNj.
    destruct (IH lab j (upd j (Some lab) L)) as (L' & H1 & H2 & H3 & H4 & H5); auto.
    + pose proof (countb_upd _ (fun o => negb (is_some o)) (Some lab) None L j ltac:(lia)) as Hc.
      rewrite HNj in Hc. simpl in Hc. lia.
    + rewrite upd_length; auto.
    + intros x Hx Hne. rewrite nth_upd_other by auto. apply Hnone.
      * econstructor; eauto.
      * eapply rooted_acyclic; eauto.
    + assert (Hj' : nth j L' None = Some lab) by (apply H5, nth_upd_same; lia).
      exists L'. repeat split; auto.
      * intros x Hx Hne. destruct (Nat.eq_dec x j) as [->|Hxj]; auto.
        apply H3; auto. inversion Hx; subst; [congruence|].
        replace j with j0 by congruence. auto.
      * intros x v Hv. destruct (Nat.eq_dec x j) as [->|Hxj]; [right; split; congruence|].
        apply H4 in Hv as [Hv|[Hv Hrx]].
        -- rewrite nth_upd_other in Hv by auto. auto.
        -- right. split; auto. econstructor; eauto.
      * intros x v Hv. apply H5. rewrite nth_upd_other; auto. intros ->. congruence.
Qed.

(** Invariant of the labelling loop, [ds] being the starts done so far. *)
Definition lab_inv2 (b : list Z) (ds : list nat) (st : list (option Z) * Z) : Prop :=
  length (fst st) = length b /\ snd st = Z.of_nat (length ds) /\
  (forall k i, (k < length ds)%nat -> reach b (nth k ds 0%nat) i ->
               nth i (fst st) None = Some (Z.of_nat k)) /\
  (forall i v, nth i (fst st) None = Some v ->
     exists k, (k < length ds)%nat /\ v = Z.of_nat k /\ reach b (nth k ds 0%nat) i).

Lemma label_thread_inv2 : forall b ds st s,
    lab_inv2 b ds st -> starts_thread b s -> (forall d, In d ds -> starts_thread b d) ->
    ~ In s ds ->
    exists st', label_thread b st s = Ok st' /\ lab_inv2 b (ds ++ [s]) st'.
Proof.
  intros b ds [L num] s (H1 & H2 & H3 & H4) Hs Hds Hnin. cbn [fst snd] in *.
  assert (Hno : forall i, reach b s i -> nth i L None = None).
  { intros i Hi. destruct (nth i L None) as [v|] eqn:He; auto. exfalso.
    apply H4 in He as (k & Hk & _ & Hr). apply Hnin.
    replace s with (nth k ds 0%nat); [apply nth_In; auto|].
    apply (rooted_unique b i); auto. apply Hds, nth_In; auto. }
  assert (Hsn : (s < length b)%nat) by (destruct Hs; auto).
  unfold label_thread. assert (HNs : nth s L None = None) by (apply Hno; constructor).
  rewrite HNs.
  destruct (follow_rooted b (length b) num s (upd s (Some num) L)) as (L' & F1 & F2 & F3 & F4 & F5).
  { exists s. split; auto. constructor. }
  { pose proof (countb_upd _ (fun o => negb (is_some o)) (Some num) None L s ltac:(lia)) as Hc.
    rewrite HNs in Hc. simpl in Hc.
    pose proof (countb_le _ (fun o => negb (is_some o)) L). lia. }
  { rewrite upd_length; auto. }
  { intros x Hx Hne. rewrite nth_upd_other by auto. auto. }
  rewrite F1. simpl. eexists. split; [reflexivity|].
  assert (Hold : forall i v, nth i L None = Some v -> nth i L' None = Some v).
  { intros i v Hv. apply F5. rewrite nth_upd_other; auto. intros ->. congruence. }
  repeat split; simpl; auto.
  - rewrite app_length. simpl. lia.
  - intros k i Hk Hi. rewrite app_length in Hk. simpl in Hk.
    destruct (Nat.eq_dec k (length ds)) as [->|Hkn].
    + rewrite app_nth2, Nat.sub_diag in Hi by lia. simpl in Hi. rewrite <- H2.
      destruct (Nat.eq_dec i s) as [->|His].
      * apply F5, nth_upd_same. lia.
      * apply F3; auto.
    + rewrite app_nth1 in Hi by lia. apply Hold, H3; auto. lia.
  - assert (Hnew : forall i, reach b s i -> exists k, (k < length (ds ++ [s]))%nat /\
              num = Z.of_nat k /\ reach b (nth k (ds ++ [s]) 0%nat) i).
    { intros i Hi. exists (length ds). rewrite app_length, app_nth2, Nat.sub_diag by lia.
      simpl. repeat split; auto. lia. }
    intros i v Hv. apply F4 in Hv as [Hv|[-> Hv]]; [|auto].
    destruct (Nat.eq_dec i s) as [->|His].
    + rewrite nth_upd_same in Hv by lia. inversion Hv; subst v. apply Hnew. constructor.
    + rewrite nth_upd_other in Hv by auto. apply H4 in Hv as (k & Hk & -> & Hr).
      exists k. rewrite app_length, app_nth1 by lia. repeat split; auto. lia.
Qed.

Lemma foldM_label_inv2 : forall b todo ds st,
    lab_inv2 b ds st -> (forall s, In s (ds ++ todo) -> starts_thread b s) ->
    NoDup (ds ++ todo) ->
    exists st', foldM (label_thread b) todo st = Ok st' /\ lab_inv2 b (ds ++ todo) st'.
Proof.
  induction todo as [|s t IH]; intros ds st Hinv Hs Hnd; simpl.
  - exists st. rewrite app_nil_r. auto.
  - destruct (label_thread_inv2 b ds st s) as (st1 & H1 & H2); auto.
    + apply Hs, in_or_app; right; left; auto.
    + intros; apply Hs, in_or_app; auto.
    + apply NoDup_remove_2 in Hnd. intros Hc. apply Hnd, in_or_app; auto.
    + rewrite H1. simpl. replace (ds ++ s :: t) with ((ds ++ [s]) ++ t) in *
        by (rewrite <- app_assoc; auto).
      apply IH; auto.
Qed.

(** The start points, when the indexes are at least -1 and -1 is one of them. *)
Section Weak.
  Variable b : list Z.
  Hypothesis Hm1 : In (-1) b.
  Hypothesis Hge : forall x, In x b -> -1 <= x.
  Let n := length b.
  Let Hv : forall i, (i < length b)%nat -> -1 <= nth i b 0.
  Proof. intros i Hi. apply Hge, nth_In; auto. Qed.

  Lemma unique_head_w : b <> [] -> exists t, unique b = -1 :: t.
  Proof.
    intros Hne. pose proof Hm1 as H0.
    pose proof (unique_sorted b) as Hs. pose proof (in_unique b) as Hin.
    destruct (unique b) as [|u t].
    - apply Hin in H0. destruct H0.
    - exists t. f_equal. inversion Hs as [|? ? _ Hf]; subst. rewrite Forall_forall in Hf.
      assert (Hu : In u b) by (apply Hin; left; auto).
      destruct (In_nth _ _ 0 Hu) as [k [Hk <-]]. pose proof (Hv k Hk).
      destruct (proj2 (Hin (-1)) H0) as [H1|H1]; auto. apply Hf in H1. lia.
  Qed.

  Lemma start_points_eq_w : b <> [] -> exists t,
      StronglySorted Z.lt (-1 :: t) /\ (forall m, In m t <-> In m b /\ m <> -1) /\
      unique b = -1 :: t /\
      start_points b = where_ (Z.eqb (-1)) b ++
        flat_map (fun m => tl (where_ (Z.eqb m) b))
                 (filter (fun u => (1 <? count_in b u)%nat) t).
  Proof.
    intros Hne. destruct (unique_head_w Hne) as [t Ht]. exists t.
    pose proof (unique_sorted b) as Hs. rewrite Ht in Hs.
    repeat split; auto.
    - apply in_unique. rewrite Ht. right; auto.
    - inversion Hs as [|? ? _ Hf]; subst. rewrite Forall_forall in Hf. apply Hf in H. lia.
    - intros [H1 H2]. apply in_unique in H1. rewrite Ht in H1. destruct H1; congruence.
    - unfold start_points, thread_start_inds. rewrite Ht. reflexivity.
  Qed.

  Lemma in_start_points_w : b <> [] -> forall i,
      In i (start_points b) <-> starts_thread b i.
  Proof.
    intros Hne i. destruct (start_points_eq_w Hne) as (t & _ & Hin & _ & ->).
    rewrite in_app_iff, (in_where _ _ 0), in_flat_map. unfold starts_thread. fold n.
    split.
    - intros [[H1 H2]|[m [H1 H2]]].
      + apply Z.eqb_eq in H2. auto.
      + apply in_tl_where in H2 as (H3 & H4 & j & H5 & H6). split; auto.
        right. exists j. split; auto. congruence.
    - intros [H1 [H2|[j [H2 H3]]]].
      + left. split; auto. apply Z.eqb_eq; auto.
      + destruct (Z.eq_dec (nth i b 0) (-1)) as [He|He];
          [left; split; auto; apply Z.eqb_eq; auto|].
        right. exists (nth i b 0).
        assert (Ht : In i (tl (where_ (Z.eqb (nth i b 0)) b))) by (apply in_tl_where; eauto).
        split; auto. apply filter_In. split.
        * apply Hin. split; auto. apply nth_In; auto.
        * apply Nat.ltb_lt. eapply count_gt1; eauto.
  Qed.

  Lemma start_points_sorted_w : b <> [] -> StronglySorted (starts_before b) (start_points b).
  Proof.
    intros Hne. destruct (start_points_eq_w Hne) as (t & Hs & Hin & _ & ->).
    inversion Hs as [|? ? Hst _]; subst.
    assert (Hsame : forall m l, (forall i, In i l -> nth i b 0 = m) ->
                                StronglySorted lt l -> StronglySorted (starts_before b) l).
    { intros m l Hl. apply ssorted_weaken. intros x y Hx Hy Hxy. right.
      split; auto. rewrite !Hl; auto. }
    apply ssorted_app.
    - apply (Hsame (-1)); [|apply where_sorted]. intros i Hi.
      apply (in_where _ _ 0) in Hi as [_ Hi]. apply Z.eqb_eq in Hi; auto.
    - assert (Hf : StronglySorted Z.lt (filter (fun u => (1 <? count_in b u)%nat) t))
        by (apply ssorted_filter; auto).
      revert Hf. generalize (filter (fun u => (1 <? count_in b u)%nat) t).
      induction 1 as [|m l Hl IH F]; simpl; [constructor|].
      apply ssorted_app; auto.
      + apply (Hsame m).
        * intros i Hi. apply in_tl_where in Hi. tauto.
        * pose proof (where_sorted _ (Z.eqb m) b) as Hw.
          destruct (where_ (Z.eqb m) b); simpl; [constructor|inversion Hw; auto].
      + intros x y Hx Hy. left. apply in_tl_where in Hx as (_ & -> & _).
        apply in_flat_map in Hy as [m' [Hm' Hy]]. apply in_tl_where in Hy as (_ & -> & _).
        rewrite Forall_forall in F. auto.
    - intros x y Hx Hy. left.
      apply (in_where _ _ 0) in Hx as [_ Hx]. apply Z.eqb_eq in Hx. rewrite <- Hx.
      apply in_flat_map in Hy as [m' [Hm' Hy]]. apply in_tl_where in Hy as (Hy & He & _).
      apply filter_In in Hm' as [Hm' _]. apply Hin in Hm' as [_ Hm'].
      pose proof (Hv y Hy). lia.
  Qed.

  Lemma start_points_NoDup_w : b <> [] -> NoDup (start_points b).
  Proof.
    intros Hne. pose proof (start_points_sorted_w Hne) as Hs.
    induction Hs as [|x l H IH F]; constructor; auto.
    rewrite Forall_forall in F. intros Hc. apply F in Hc. eapply starts_before_irrefl; eauto.
  Qed.

  Lemma counts_length_w : b <> [] ->
      nsum (thread_start_counts b) = length (start_points b).
  Proof.
    intros Hne. destruct (start_points_eq_w Hne) as (t & _ & _ & Hu & ->).
    unfold thread_start_counts. rewrite Hu. simpl firstn. simpl skipn.
    rewrite app_length, where_length. simpl nsum. unfold count_in at 1.
    f_equal. induction t as [|m t IH]; simpl; auto.
    assert (IHt : nsum (map pred (filter (fun c => (1 <? c)%nat) (map (count_in b) t))) =
      length (flat_map (fun m => tl (where_ (Z.eqb m) b))
                 (filter (fun u => (1 <? count_in b u)%nat) t))).
    { clear. induction t as [|m' t IH]; simpl; auto.
      destruct (1 <? count_in b m')%nat; simpl; auto.
      rewrite app_length, IH. f_equal. unfold count_in. rewrite <- where_length.
      destruct (where_ (Z.eqb m') b); auto. }
    destruct (1 <? count_in b m)%nat; simpl; auto.
    rewrite app_length, IHt. f_equal. unfold count_in. rewrite <- where_length.
    destruct (where_ (Z.eqb m) b); auto.
  Qed.

End Weak.

(** ** The points without a label *)
Lemma in_somes : forall A (L : list (option A)) x, In x (somes L) <-> In (Some x) L.
Proof.
  intros A L x. unfold somes. rewrite in_flat_map. split.
  - intros (o & H1 & H2). destruct o; simpl in H2; [|tauto]. destruct H2 as [->|[]]; auto.
  - intros H. exists (Some x). split; simpl; auto.
Qed.
Lemma in_firstn_nth : forall A (d : A) i l x,
    In x (firstn i l) <-> exists j, (j < i)%nat /\ (j < length l)%nat /\ nth j l d = x.
Proof.
  intros A d. induction i as [|i IH]; intros l x; simpl.
  - split; [tauto|]. intros (j & H & _). lia.
  - destruct l as [|a l]; simpl; [split; [tauto|intros (j & _ & H & _); lia]|].
    rewrite IH. split.
    + intros [->|(j & H1 & H2 & H3)]; [exists 0%nat; repeat split; lia|].
      exists (S j). repeat split; auto; lia.
    + intros ([|j] & H1 & H2 & H3); [auto|]. right. exists j. repeat split; auto; lia.
Qed.
Lemma in_skipn_nth : forall A (d : A) i l x,
    In x (skipn i l) <-> exists j, (i <= j)%nat /\ (j < length l)%nat /\ nth j l d = x.
Proof.
  intros A d. induction i as [|i IH]; intros l x.
  - rewrite skipn_O. split.
    + intros H. destruct (In_nth _ _ d H) as (j & H1 & H2). exists j. repeat split; auto. lia.
    + intros (j & _ & H1 & <-). apply nth_In; auto.
  - destruct l as [|a l]; simpl; [split; [tauto|intros (j & _ & H & _); lia]|].
    rewrite IH. split.
    + intros (j & H1 & H2 & H3). exists (S j). repeat split; auto; lia.
    + intros ([|j] & H1 & H2 & H3); [lia|]. exists j. repeat split; auto; lia.
Qed.

(** The labels which [ind] may be given. *)
Lemma assign_unlabelled_ok : forall E (L : list (option Z)) i (w : world E),
    (exists v, In (Some v) L) -> (i < length L)%nat ->
    exists x w', assign_unlabelled L i w = (Ok (upd i (Some x) L), w') /\
      w_warn w' = w_warn w /\ In (Some x) L /\
      (forall y, (exists j, (j < i)%nat /\ nth j L None = Some y) ->
                 (exists k, (i < k)%nat /\ nth k L None = Some y) ->
         (exists j, (j < i)%nat /\ nth j L None = Some x) /\
         (exists k, (i < k)%nat /\ nth k L None = Some x)).
Proof.
  intros E L i w [v Hv] Hi. unfold assign_unlabelled.
  set (inter := filter (fun x => existsb (Z.eqb x) (somes (skipn (S i) L)))
                       (unique (somes (firstn i L)))).
  assert (Hlt : forall k y, nth k L None = Some y -> (k < length L)%nat).
  { intros k y H. destruct (lt_dec k (length L)); auto. rewrite nth_overflow in H by lia. congruence. }
  assert (Hinter : forall y, In y inter <->
     (exists j, (j < i)%nat /\ nth j L None = Some y) /\
     (exists k, (i < k)%nat /\ nth k L None = Some y)).
  { intros y. unfold inter. rewrite filter_In, in_unique, in_somes, existsb_exists.
    rewrite (in_firstn_nth _ None). split.
    - intros [(j & H1 & _ & H2) (z & H3 & H4)]. apply Z.eqb_eq in H4. subst z.
      apply in_somes in H3. apply (in_skipn_nth _ None) in H3 as (k & H5 & _ & H6).
      split; [exists j|exists k]; auto.
    - intros [(j & H1 & H2) (k & H3 & H4)]. split; [exists j; eauto|].
      exists y. split; [|apply Z.eqb_eq; auto]. apply in_somes. apply (in_skipn_nth _ None).
      exists k. repeat split; eauto. }
  set (pool := match inter with [] => unique (somes L) | _ => inter end).
  assert (Hpool : pool <> []).
  { unfold pool. destruct inter eqn:He; [|congruence]. intros Hc.
    assert (In v (unique (somes L))) by (apply in_unique, in_somes; auto).
    rewrite Hc in H. destruct H. }
  destruct (choice_ok E Z pool w Hpool) as (x & w' & Hc & Hx & Hw).
  exists x, w'. unfold wbind. fold pool. rewrite Hc. split; [reflexivity|]. split; auto.
  assert (Hcase : In x inter \/ (inter = [] /\ In x (unique (somes L)))).
  { unfold pool in Hx. destruct inter; auto. }
  split.
  - destruct Hcase as [H|[_ H]].
    + apply Hinter in H as [(j & _ & H) _]. rewrite <- H. apply nth_In. eauto.
    + apply in_somes, in_unique; auto.
  - intros y H1 H2. apply Hinter. destruct Hcase as [H|[H _]]; auto.
    exfalso. assert (In y inter) by (apply Hinter; auto). rewrite H in H0. destruct H0.
Qed.

Lemma assign_fold : forall E inds (L : list (option Z)) (w : world E),
    StronglySorted lt inds ->
    (forall i, In i inds <-> (i < length L)%nat /\ nth i L None = None) ->
    (exists v, In (Some v) L) ->
    exists L' w', wfoldM assign_unlabelled inds L w = (Ok L', w') /\
      w_warn w' = w_warn w /\ length L' = length L /\
      (forall i v, nth i L None = Some v -> nth i L' None = Some v) /\
      (forall i, (i < length L)%nat -> exists v, nth i L' None = Some v /\ In (Some v) L) /\
      (forall i y, In i inds ->
         (exists j, (j < i)%nat /\ nth j L' None = Some y) ->
         (exists k, (i < k)%nat /\ nth k L None = Some y) ->
         exists x, nth i L' None = Some x /\
           (exists j, (j < i)%nat /\ nth j L' None = Some x) /\
           (exists k, (i < k)%nat /\ nth k L None = Some x)).
Proof.
  intros E. induction inds as [|i t IH]; intros L w Hs Hin Hex.
  - exists L, w. split; [reflexivity|]. repeat split; auto.
    + intros i Hi. destruct (nth i L None) as [v|] eqn:He.
      * exists v. split; auto. rewrite <- He. apply nth_In; auto.
      * exfalso. apply (proj2 (Hin i)). auto.
    + intros i y [].
  - destruct (proj1 (Hin i) (or_introl eq_refl)) as [Hi HNi].
    destruct (assign_unlabelled_ok E L i w Hex Hi) as (x & w1 & Ha & Hw1 & Hx & Hcand).
    inversion Hs as [|? ? Hst Hf]; subst. rewrite Forall_forall in Hf.
    assert (Hlow : forall j, (j < i)%nat -> exists v, nth j L None = Some v).
    { intros j Hj. destruct (nth j L None) as [v|] eqn:He; eauto. exfalso.
      assert (Hjn : In j (i :: t)) by (apply Hin; split; auto; lia).
      destruct Hjn as [->|Hjn]; [lia|]. apply Hf in Hjn. lia. }
    assert (Hnoti : forall j, In j t -> j <> i) by (intros j Hj ->; apply Hf in Hj; lia).
    destruct (IH (upd i (Some x) L) w1) as (L' & w' & H1 & H2 & H3 & H4 & H5 & H6); auto.
    + intros j. rewrite upd_length. split.
      * intros Hj. rewrite nth_upd_other by (intros ->; eapply Hnoti; eauto).
        apply Hin. right; auto.
      * intros [Hj HN]. destruct (Nat.eq_dec j i) as [->|Hne].
        -- rewrite nth_upd_same in HN by auto. discriminate.
        -- rewrite nth_upd_other in HN by auto.
           assert (Hjn : In j (i :: t)) by (apply Hin; auto). destruct Hjn; congruence.
    + exists x. assert (Hq : In (nth i (upd i (Some x) L) None) (upd i (Some x) L))
        by (apply nth_In; rewrite upd_length; auto).
      rewrite nth_upd_same in Hq by auto. auto.
    + assert (Hold : forall j v, nth j L None = Some v -> nth j L' None = Some v).
      { intros j v Hj. apply H4. rewrite nth_upd_other; auto. intros ->. congruence. }
      assert (Hi' : nth i L' None = Some x) by (apply H4, nth_upd_same; auto).
      assert (Hbefore : forall j v, (j < i)%nat -> nth j L' None = Some v -> nth j L None = Some v).
      { intros j v Hj He. destruct (Hlow j Hj) as [u Hu]. rewrite (Hold j u Hu) in He. congruence. }
      exists L', w'. split; [simpl; unfold wbind; rewrite Ha; auto|].
      split; [congruence|]. split; [rewrite H3, upd_length; auto|]. split; [auto|].
      split.
      * intros j Hj. destruct (H5 j) as (v & Hv & Hv'); [rewrite upd_length; auto|].
        exists v. split; auto. destruct (In_nth _ _ None Hv') as (m & Hm & He).
        destruct (Nat.eq_dec m i) as [->|Hne].
        -- rewrite nth_upd_same in He by auto. congruence.
        -- rewrite nth_upd_other in He by auto. rewrite upd_length in Hm. rewrite <- He.
           apply nth_In; auto.
      * intros i0 y [<-|Hi0] (j & Hj & Hjy) (k & Hk & Hky).
        -- exists x. split; auto. destruct (Hcand y) as ((j2 & Hj2 & Hj2x) & Hk2); [eauto|eauto|].
           split; auto. exists j2. split; auto.
        -- pose proof (Hf i0 Hi0). destruct (H6 i0 y Hi0) as (z & Hz & Hz1 & k2 & Hk2 & Hz2); eauto.
           { exists k. split; auto. rewrite nth_upd_other by lia. auto. }
           exists z. split; auto. split; auto. exists k2. split; auto.
           rewrite nth_upd_other in Hz2 by lia. auto.
Qed.

(** ** The whole function *)
Theorem threads_general : forall b, In (-1) b -> (forall x, In x b -> -1 <= x) ->
    forall E (w : world E), exists labs w',
      threads_given_birth_inds b w = (Ok labs, w') /\
      ((w' = w /\ forall i, (i < length b)%nat -> has_thread b i) \/
       (w' = mkW (w_rng w) (WUnlabelled :: w_warn w) /\
        exists i, (i < length b)%nat /\ ~ has_thread b i)) /\
      length labs = length b /\
      (forall i j, (i < length b)%nat -> ~ starts_thread b i ->
         nth i b 0 = Z.of_nat j -> has_thread b j -> nth i labs 0 = nth j labs 0) /\
      (exists starts,
         (forall i, In i starts <-> starts_thread b i) /\
         StronglySorted (starts_before b) starts /\
         (forall k, (k < length starts)%nat ->
                    nth (nth k starts 0%nat) labs 0 = Z.of_nat k) /\
         (forall x, In x labs <-> 0 <= x < Z.of_nat (length starts))) /\
      (forall i x, (i < length b)%nat -> ~ has_thread b i ->
         (exists j, (j < i)%nat /\ nth j labs 0 = x) ->
         (exists k, (i < k)%nat /\ has_thread b k /\ nth k labs 0 = x) ->
         (exists j, (j < i)%nat /\ nth j labs 0 = nth i labs 0) /\
         (exists k, (i < k)%nat /\ has_thread b k /\ nth k labs 0 = nth i labs 0)).
Proof.
  intros b Hm1 Hge E w.
  assert (Hne : b <> []) by (intros ->; destruct Hm1).
  pose proof (in_start_points_w b Hm1 Hge Hne) as HSP.
  destruct (foldM_label_inv2 b (start_points b) [] (repeat None (length b), 0))
    as ([L num] & HF & I1 & I2 & I3 & I4).
  { repeat split; simpl; auto.
    - apply repeat_length.
    - intros; lia.
    - intros i v He. exfalso. destruct (lt_dec i (length b)).
      + rewrite nth_repeat in He. congruence.
      + rewrite nth_overflow in He by (rewrite repeat_length; lia). congruence. }
  { simpl. intros. apply HSP; auto. }
  { simpl. apply start_points_NoDup_w; auto. }
  simpl in I1, I2, I3, I4. set (SP := start_points b) in *.
  assert (Hhas : forall i, has_thread b i <-> exists v, nth i L None = Some v).
  { intros i. rewrite <- rooted_has_thread. split.
    - intros (s & Hs & Hr). apply HSP in Hs. fold SP in Hs.
      destruct (In_nth _ _ 0%nat Hs) as (k & Hk & He). exists (Z.of_nat k).
      apply I3; auto. rewrite He; auto.
    - intros [v He]. apply I4 in He as (k & Hk & _ & Hr).
      exists (nth k SP 0%nat). split; auto. apply HSP, nth_In; auto. }
  assert (Hlt : forall i v, nth i L None = Some v -> (i < length b)%nat).
  { intros i v H. apply rooted_lt, rooted_has_thread, Hhas. eauto. }
  assert (HSPne : (0 < length SP)%nat).
  { destruct (In_nth _ _ 0 Hm1) as (i & Hi & He).
    assert (In i SP) by (apply HSP; split; auto).
    destruct SP; [destruct H|simpl; lia]. }
  (* the rest of the function, from any complete assignment *)
  assert (Hfin : forall (L' : list (option Z)),
    length L' = length b ->
    (forall i v, nth i L None = Some v -> nth i L' None = Some v) ->
    (forall i, (i < length b)%nat -> exists v, nth i L' None = Some v /\ In (Some v) L) ->
    (forall i y, (i < length b)%nat -> nth i L None = None ->
         (exists j, (j < i)%nat /\ nth j L' None = Some y) ->
         (exists k, (i < k)%nat /\ nth k L None = Some y) ->
         exists x, nth i L' None = Some x /\
           (exists j, (j < i)%nat /\ nth j L' None = Some x) /\
           (exists k, (i < k)%nat /\ nth k L None = Some x)) ->
    forallb is_some L' = true /\
    unique (somes L') = zrange (nsum (thread_start_counts b)) /\
    length (somes L') = length b /\
      (forall i j, (i < length b)%nat -> ~ starts_thread b i ->
         nth i b 0 = Z.of_nat j -> has_thread b j -> nth i (somes L') 0 = nth j (somes L') 0) /\
      (exists starts,
         (forall i, In i starts <-> starts_thread b i) /\
         StronglySorted (starts_before b) starts /\
         (forall k, (k < length starts)%nat ->
                    nth (nth k starts 0%nat) (somes L') 0 = Z.of_nat k) /\
         (forall x, In x (somes L') <-> 0 <= x < Z.of_nat (length starts))) /\
      (forall i x, (i < length b)%nat -> ~ has_thread b i ->
         (exists j, (j < i)%nat /\ nth j (somes L') 0 = x) ->
         (exists k, (i < k)%nat /\ has_thread b k /\ nth k (somes L') 0 = x) ->
         (exists j, (j < i)%nat /\ nth j (somes L') 0 = nth i (somes L') 0) /\
         (exists k, (i < k)%nat /\ has_thread b k /\ nth k (somes L') 0 = nth i (somes L') 0))).
  { intros L' J1 J2 J3 J4.
    set (f i := match nth i L' None with Some z => z | None => 0 end).
    assert (HL : L' = map (fun i => Some (f i)) (seq 0 (length b))).
    { apply nth_ext' with (d := None).
      - rewrite map_length, seq_length; auto.
      - intros i Hi. rewrite nth_map_seq by lia. unfold f.
        destruct (J3 i ltac:(lia)) as (k & -> & _). auto. }
    pose proof (somes_map_some L' f (seq 0 (length b)) HL) as Hsome.
    assert (Hnth : forall i, (i < length b)%nat -> nth i L' None = Some (nth i (somes L') 0)).
    { intros i Hi. rewrite Hsome, nth_map_seq by auto. unfold f.
      destruct (J3 i Hi) as (v & -> & _). auto. }
    assert (Hval : forall i v, nth i L None = Some v -> nth i (somes L') 0 = v).
    { intros i v Hi. pose proof (Hlt i v Hi) as Hl. pose proof (Hnth i Hl) as H.
      rewrite (J2 i v Hi) in H. congruence. }
    assert (Hk : forall k, (k < length SP)%nat -> nth (nth k SP 0%nat) (somes L') 0 = Z.of_nat k).
    { intros k Hk. apply Hval, I3; auto. constructor. }
    assert (Hin : forall x, In x (somes L') <-> 0 <= x < Z.of_nat (length SP)).
    { intros x. split.
      - intros Hx. apply in_somes in Hx. destruct (In_nth _ _ None Hx) as (i & Hi & He).
        destruct (J3 i ltac:(lia)) as (v & Hv & HvL). assert (v = x) by congruence. subst v.
        destruct (In_nth _ _ None HvL) as (m & Hm & Hme).
        apply I4 in Hme as (k & Hkl & -> & _). lia.
      - intros Hx. assert (Hl : (Z.to_nat x < length SP)%nat) by lia.
        pose proof (Hk (Z.to_nat x) Hl) as He.
        rewrite Z2Nat.id in He by lia. rewrite <- He. apply nth_In.
        rewrite Hsome, map_length, seq_length.
        assert (Hs : starts_thread b (nth (Z.to_nat x) SP 0%nat)) by (apply HSP, nth_In; auto).
        destruct Hs; auto. }
    split; [|split; [|split; [|split; [|split]]]].
    - rewrite HL. apply forallb_forall. intros o Ho. apply in_map_iff in Ho as [i [<- _]]. auto.
    - rewrite counts_length_w by auto. apply unique_zrange. auto.
    - rewrite Hsome, map_length, seq_length; auto.
    - intros i j Hi Hs He Hj. apply rooted_has_thread in Hj as (s & Hs' & Hr).
      apply HSP in Hs'. fold SP in Hs'. destruct (In_nth _ _ 0%nat Hs') as (k & Hkl & <-).
      rewrite (Hval j (Z.of_nat k)) by auto. apply Hval, I3; auto.
      eapply reach_snoc; eauto. apply nxt_spec. repeat split; auto.
      intros m Hm Hme. apply Hs. split; auto. right. exists m. split; auto. congruence.
    - exists SP. split; [|split; [|split]]; auto. apply start_points_sorted_w; auto.
    - intros i x Hi Hnt (j & Hj & Hjx) (k & Hkk & Hkt & Hkx).
      assert (HNi : nth i L None = None).
      { destruct (nth i L None) eqn:He; auto. exfalso. apply Hnt, Hhas. eauto. }
      destruct (J4 i x Hi HNi) as (y & Hy & (j2 & Hj2 & Hj2y) & k2 & Hk2 & Hk2y).
      + exists j. split; auto. rewrite Hnth by lia. congruence.
      + exists k. split; auto. apply Hhas in Hkt as [v Hv]. rewrite Hv. f_equal.
        rewrite (Hval k v Hv) in Hkx. auto.
      + assert (Hyi : nth i (somes L') 0 = y) by (rewrite Hnth in Hy by auto; congruence).
        rewrite Hyi. split.
        * exists j2. split; auto. rewrite Hnth in Hj2y by lia. congruence.
        * exists k2. split; auto. split; [apply Hhas; eauto|apply Hval; auto]. }
  unfold threads_given_birth_inds. fold SP. rewrite HF.
  destruct (forallb is_some L) eqn:Hall.
  - assert (Hev : forall i, (i < length b)%nat -> exists v, nth i L None = Some v).
    { intros i Hi. rewrite forallb_forall in Hall.
      assert (H : In (nth i L None) L) by (apply nth_In; lia). apply Hall in H.
      destruct (nth i L None); [eauto|discriminate]. }
    destruct (Hfin L) as (_ & F2 & F3 & F4 & F5 & F6); auto.
    { intros i Hi. destruct (Hev i Hi) as [v Hv]. exists v. split; auto.
      rewrite <- Hv. apply nth_In; lia. }
    { intros i y Hi Hn. destruct (Hev i Hi). congruence. }
    exists (somes L), w. split.
    { unfold wlift, wbind. cbn [fst]. rewrite Hall. unfold wret, wassert, wlift, assertb.
      rewrite Hall, F2, (proj2 (list_eqb_eq _ _) eq_refl). auto. }
    split; [left; split; auto; intros i Hi; apply Hhas; auto|]. auto.
  - destruct (assign_fold E (where_ (fun o => negb (is_some o)) L) L
                (mkW (r_seed E 0) (WUnlabelled :: w_warn w)))
      as (L' & w' & A1 & A2 & A3 & A4 & A5 & A6).
    { apply where_sorted. }
    { intros i. rewrite (in_where _ _ None). destruct (nth i L None); simpl; intuition congruence. }
    { exists (Z.of_nat 0). rewrite <- (I3 0%nat (nth 0 SP 0%nat)); [|lia|constructor].
      apply nth_In. rewrite I1.
      assert (Hs : starts_thread b (nth 0 SP 0%nat)) by (apply HSP, nth_In; auto).
      destruct Hs; auto. }
    destruct (Hfin L') as (F1 & F2 & F3 & F4 & F5 & F6); auto.
    { congruence. }
    { intros i Hi. apply A5. lia. }
    { intros i y Hi Hn. apply A6. apply (in_where _ _ None). rewrite Hn. split; [lia|auto]. }
    exists (somes L'), (mkW (w_rng w) (WUnlabelled :: w_warn w)). split.
    { change (@seed E 0) with (@set_state E (r_seed E 0)). unfold wlift, wbind, warn, get_state, set_state. cbn [fst snd w_rng w_warn].
      rewrite Hall. cbn [w_rng w_warn]. rewrite A1. cbn [w_rng w_warn].
      unfold wret, wassert, wlift, assertb.
      rewrite F1, F2, (proj2 (list_eqb_eq _ _) eq_refl), A2. auto. }
    split; [|auto]. right. split; auto.
    assert (Hx : existsb (fun o => negb (is_some o)) L = true).
    { clear -Hall. induction L as [|o L IH]; simpl in *; [congruence|].
      destruct (is_some o); simpl in *; auto. }
    apply existsb_exists in Hx as (o & Ho & Hn). destruct (In_nth _ _ None Ho) as (i & Hi & He).
    exists i. split; [lia|]. intros Hc. apply Hhas in Hc as [v Hv]. rewrite Hv in He. subst o. discriminate.
Qed.

Lemma has_thread_dec : forall b, In (-1) b -> (forall x, In x b -> -1 <= x) ->
    forall i, (i < length b)%nat -> has_thread b i \/ ~ has_thread b i.
Proof.
  intros b Hm1 Hge i Hi.
  assert (Hne : b <> []) by (intros ->; destruct Hm1).
  pose proof (in_start_points_w b Hm1 Hge Hne) as HSP.
  destruct (foldM_label_inv2 b (start_points b) [] (repeat None (length b), 0))
    as ([L num] & HF & I1 & I2 & I3 & I4).
  { repeat split; simpl; auto.
    - apply repeat_length.
    - intros; lia.
    - intros k v He. exfalso. destruct (lt_dec k (length b)).
      + rewrite nth_repeat in He. congruence.
      + rewrite nth_overflow in He by (rewrite repeat_length; lia). congruence. }
  { simpl. intros. apply HSP; auto. }
  { simpl. apply start_points_NoDup_w; auto. }
  simpl in I3, I4. destruct (nth i L None) as [v|] eqn:He.
  - left. apply rooted_has_thread. apply I4 in He as (k & Hk & _ & Hr).
    exists (nth k (start_points b) 0%nat). split; auto. apply HSP, nth_In; auto.
  - right. intros Hc. apply rooted_has_thread in Hc as (s & Hs & Hr).
    apply HSP in Hs. destruct (In_nth _ _ 0%nat Hs) as (k & Hk & <-).
    rewrite (I3 k i) in He; auto. discriminate.
Qed.
