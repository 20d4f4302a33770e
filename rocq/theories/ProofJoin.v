(** combine_threads: C18, C19, C23, C25. *)
From Verif Require Import Base ModelRun ModelData ProofBase ProofMonad Spec SpecRun
     ProofThreads ProofBirth ProofRun ProofProcess ProofDict ProofComb ProofRuns.

Lemma upd_nth_map : forall A B (f : A -> B) d x l i, f x = f (nth i l d) -> map f (upd i x l) = map f l.
Proof.
  intros A B f d x l. induction l as [|y t IH]; intros [|i] H; simpl in *; auto.
  - congruence.
  - f_equal. auto.
Qed.
Lemma bump_key : forall i rows, map key (bump i rows) = map key rows.
Proof. intros. unfold bump. apply (upd_nth_map _ _ _ row0). auto. Qed.
Lemma keys_cols : forall a b, map key a = map key b ->
    map r_logl a = map r_logl b /\ map r_lab a = map r_lab b /\ map r_theta a = map r_theta b.
Proof.
  intros a b H. split; [|split].
  - assert (Hm : map fst (map key a) = map fst (map key b)) by congruence.
    rewrite !map_map in Hm. auto.
  - assert (Hm : map (fun p => fst (snd p)) (map key a) = map (fun p => fst (snd p)) (map key b)) by congruence.
    rewrite !map_map in Hm. auto.
  - assert (Hm : map (fun p => snd (snd p)) (map key a) = map (fun p => snd (snd p)) (map key b)) by congruence.
    rewrite !map_map in Hm. auto.
Qed.
Lemma bump_logl : forall i rows, map r_logl (bump i rows) = map r_logl rows.
Proof. intros. apply keys_cols, bump_key. Qed.
Lemma bump_dn : forall i rows, map r_dn (bump i rows) = upd i (nth i (map r_dn rows) 0 + 1) (map r_dn rows).
Proof.
  intros. unfold bump. rewrite upd_map. cbn [r_dn]. f_equal.
  destruct (Nat.lt_ge_cases i (length rows)) as [H|H].
  - rewrite (map_nth_in _ _ _ 0 row0) by auto. auto.
  - rewrite !nth_overflow by (rewrite ?map_length; lia). auto.
Qed.
Lemma dsum_bump : forall x i rows, (i < length rows)%nat ->
    dsum x (bump i rows) = dsum x rows + Z.b2z (r_logl (nth i rows row0) <? x).
Proof.
  intros x i rows. unfold dsum, bump. revert i. induction rows as [|y t IH]; intros i Hi; [simpl in Hi; lia|].
  destruct i as [|i].
  - cbn [nth upd filter r_logl]. destruct (r_logl y <? x); cbn [map r_dn Z.b2z]; rewrite ?zsum_cons; lia.
  - cbn [nth upd filter]. specialize (IH i ltac:(simpl in Hi; lia)).
    destruct (r_logl y <? x); cbn [map]; rewrite ?zsum_cons, IH; lia.
Qed.

(** ** The loop over the finite starts *)
Lemma add_start_key : forall E abp rows s (w : world E) rows' w',
    add_start abp rows s w = (Ok rows', w') -> map key rows' = map key rows /\ w_warn w' = w_warn w.
Proof.
  intros E abp rows s w rows' w' H. unfold add_start in H.
  apply wbind_Ok in H as (u & w1 & H1 & H).
  assert (Hw : w_warn w1 = w_warn w).
  { destruct abp; [apply wassert_Ok in H1 as [_ ->]; auto|inversion H1; auto]. }
  destruct (where_ _ rows) as [|i [|i2 l]].
  - inversion H; subst. rewrite bump_key. auto.
  - inversion H; subst. rewrite bump_key. auto.
  - apply wbind_Ok in H as (k & w2 & H2 & H). inversion H; subst. rewrite bump_key. split; auto.
    destruct (choice_ok E nat (i :: i2 :: l) w1) as (y & w3 & C1 & _ & C3); [discriminate|].
    rewrite C1 in H2. inversion H2; subst. congruence.
Qed.
Lemma fold_key : forall E abp ss rows (w : world E) rows' w',
    wfoldM (add_start abp) ss rows w = (Ok rows', w') ->
    map key rows' = map key rows /\ w_warn w' = w_warn w.
Proof.
  intros E abp ss. induction ss as [|s t IH]; intros rows w rows' w' H.
  - inversion H; auto.
  - cbn [wfoldM] in H. apply wbind_Ok in H as (r1 & w1 & H1 & H).
    apply add_start_key in H1 as [A1 A2]. apply IH in H as [B1 B2]. split; congruence.
Qed.

Lemma starts_fold : forall E abp ss rows (w : world E),
    (forall s, In s ss -> In s (map r_logl rows)) -> (abp = true -> NoDup (map r_logl rows)) ->
    exists bs w', wfoldM (add_start abp) ss rows w = (Ok (fold_left (fun l i => bump i l) bs rows), w') /\
      w_warn w' = w_warn w /\
      Forall2 (fun s i => (i < length rows)%nat /\ r_logl (nth i rows row0) = s) ss bs.
Proof.
  intros E abp ss. induction ss as [|s t IH]; intros rows w Hin Hnd.
  - exists [], w. split; [auto|]. split; auto.
  - cbn [wfoldM].
    assert (Hstep : exists i w1, add_start abp rows s w = (Ok (bump i rows), w1) /\ w_warn w1 = w_warn w /\
                      (i < length rows)%nat /\ r_logl (nth i rows row0) = s).
    { unfold add_start.
      pose proof (fun i => in_where _ (fun x => r_logl x =? s) row0 rows i) as Hw.
      pose proof (where_NoDup _ (fun x => r_logl x =? s) rows) as Hwn.
      assert (Hex : exists i, In i (where_ (fun x => r_logl x =? s) rows)).
      { specialize (Hin s (or_introl eq_refl)). apply in_map_iff in Hin as [x [Hx Hin]].
        destruct (in_nth_row _ _ Hin) as (i & I1 & I2). exists i. apply Hw. split; auto.
        rewrite I2. apply Z.eqb_eq; auto. }
      set (ind := where_ (fun x => r_logl x =? s) rows) in *.
      assert (Hone : abp = true -> length ind = 1%nat).
      { intros Ha. specialize (Hnd Ha). destruct Hex as [i Hi].
        destruct ind as [|a [|b l]]; [destruct Hi|auto|]. exfalso.
        assert (a = b).
        { destruct (proj1 (Hw a) (or_introl eq_refl)) as [A1 A2].
          destruct (proj1 (Hw b) (or_intror (or_introl eq_refl))) as [B1 B2].
          apply Z.eqb_eq in A2, B2.
          apply (proj1 (NoDup_nth (map r_logl rows) 0) Hnd); rewrite ?map_length; auto.
          rewrite !nth_logl by auto. congruence. }
        subst. inversion Hwn; subst. apply H1. left; auto. }
      assert (Has : (if abp then wassert (length ind =? 1)%nat else wret tt) w = (Ok tt, w)).
      { destruct abp; auto. apply wassert_true. rewrite Hone by auto. auto. }
      rewrite (wbind_run _ _ _ _ _ _ _ _ Has).
      destruct ind as [|a [|b l]] eqn:Hind.
      - destruct Hex as [i []].
      - exists a, w. split; auto. split; auto. destruct (proj1 (Hw a) (or_introl eq_refl)) as [A1 A2].
        apply Z.eqb_eq in A2. auto.
      - destruct (choice_ok E nat (a :: b :: l) w) as (i & w1 & C1 & C2 & C3); [discriminate|].
        exists i, w1. rewrite (wbind_run _ _ _ _ _ _ _ _ C1). split; auto. split; auto.
        apply Hw in C2 as [A1 A2]. apply Z.eqb_eq in A2. auto. }
    destruct Hstep as (i & w1 & S1 & S2 & S3 & S4).
    rewrite (wbind_run _ _ _ _ _ _ _ _ S1).
    destruct (IH (bump i rows) w1) as (bs & w2 & I1 & I2 & I3).
    { intros s' Hs'. rewrite bump_logl. apply Hin. right; auto. }
    { rewrite bump_logl. auto. }
    exists (i :: bs), w2. split; [exact I1|]. split; [congruence|]. constructor; auto.
    assert (Hl : length (bump i rows) = length rows) by (unfold bump; apply upd_length).
    rewrite Hl in I3. clear - I3 Hl. induction I3 as [|s j ss bs [A1 A2] H IH]; constructor; auto.
    split; auto. rewrite <- A2, <- !nth_logl, bump_logl by lia. auto.
Qed.

Lemma fold_bump_key : forall bs rows, map key (fold_left (fun l i => bump i l) bs rows) = map key rows.
Proof.
  induction bs as [|i t IH]; intros rows; auto. cbn [fold_left]. rewrite IH, bump_key. auto.
Qed.
Lemma fold_bump_dsum : forall x ss bs rows,
    Forall2 (fun s i => (i < length rows)%nat /\ r_logl (nth i rows row0) = s) ss bs ->
    dsum x (fold_left (fun l i => bump i l) bs rows) = dsum x rows + zsum (map (fun s => Z.b2z (s <? x)) ss).
Proof.
  intros x ss bs. revert ss. induction bs as [|i t IH]; intros ss rows H; inversion H; subst.
  - cbn [fold_left]. change (zsum (map (fun s => Z.b2z (s <? x)) [])) with 0. lia.
  - cbn [fold_left map]. rewrite zsum_cons. destruct H3 as [A1 A2].
    rewrite (IH l).
    + rewrite dsum_bump by auto. rewrite A2. lia.
    + assert (Hl : length (bump i rows) = length rows) by (unfold bump; apply upd_length).
      clear - H4 Hl. induction H4 as [|s j ss bs [B1 B2] H IH]; constructor; auto.
      split; [lia|]. rewrite <- B2, <- !nth_logl, bump_logl by lia. auto.
Qed.

(** C23 *)
Lemma array_pairs : forall th rows, array_given_run th = Ok rows ->
    map (fun x => (r_logl x, r_theta x)) rows = combine (logl th) (theta th) /\
    length (theta th) = length (logl th).
Proof.
  intros th rows H. unfold array_given_run in H. destruct (thread_labels th) as [labs|]; [|discriminate].
  destruct (length (logl th) =? 0)%nat eqn:H0; [discriminate|].
  destruct ((length labs =? length (logl th)) && (length (nlive_array th) =? length (logl th)) &&
            (length (theta th) =? length (logl th)))%nat eqn:Hl; [|discriminate].
  apply andb_true_iff in Hl as [Hl L3]. apply andb_true_iff in Hl as [L1 L2].
  apply Nat.eqb_eq in L1, L2, L3. apply Nat.eqb_neq in H0. inversion H; subst. split; auto.
  assert (Hdn : length (diff (nlive_array th) ++ [-1]) = length (logl th)).
  { rewrite app_length, diff_length. simpl. lia. }
  revert Hdn. generalize (diff (nlive_array th) ++ [-1]). clear - L1 L3.
  generalize dependent (theta th). generalize dependent (logl th). generalize labs. clear.
  intros labs lg. revert labs. induction lg as [|l lg IH]; intros [|k labs] L1 [|t th] L3 [|d dn] Hd;
    try discriminate; auto.
  cbn [zip_rows map combine]. f_equal. apply IH; auto.
Qed.

Lemma drop_bad_cols : forall r r', drop_bad_threads r = Ok r' ->
    logl r' = logl r /\ theta r' = theta r /\ nlive_array r' = nlive_array r /\
    (check_ns_run_threads r = Ok tt -> r' = r).
Proof.
  intros r r'. unfold drop_bad_threads. destruct (check_ns_run_threads r) as [[]|e].
  - intros H; inversion H; auto.
  - destruct e; try discriminate. intros H; inversion H; subst. simpl.
    split; auto. split; auto. split; auto. discriminate.
Qed.

Lemma dict_cols : forall E rows tmm (w : world E) r w',
    dict_given_run_array rows tmm w = (Ok r, w') ->
    logl r = map r_logl rows /\ theta r = map r_theta rows /\
    thread_labels r = Some (map r_lab rows) /\ thread_min_max r = Some tmm.
Proof.
  intros E rows tmm w r w'. unfold dict_given_run_array. destruct rows; [discriminate|].
  cbv zeta. intros H. repeat (apply wbind_Ok in H as (? & ? & ? & H)). inversion H; auto.
Qed.

Lemma mapM_pairs : forall ths l, mapM array_given_run ths = Ok l ->
    map (fun x => (r_logl x, r_theta x)) (concat l) = flat_map (fun th => combine (logl th) (theta th)) ths.
Proof.
  induction ths as [|th t IH]; intros l H.
  - inversion H; auto.
  - cbn [mapM] in H. destruct (array_given_run th) as [rows|] eqn:Ha; [|discriminate]. cbn [rbind] in H.
    destruct (mapM array_given_run t) as [ys|]; [|discriminate]. inversion H; subst.
    cbn [concat flat_map]. rewrite map_app. f_equal; auto. apply array_pairs; auto.
Qed.

Lemma pair_cols : forall rows, map (fun x => (r_logl x, r_theta x)) rows = combine (map r_logl rows) (map r_theta rows).
Proof. induction rows; simpl; congruence. Qed.

Theorem combine_threads_samples : forall E ths abp (w : world E) r w',
    combine_threads ths abp w = (Ok r, w') ->
    Permutation (combine (logl r) (theta r)) (flat_map (fun th => combine (logl th) (theta th)) ths) /\
    StronglySorted Z.le (logl r) /\ length (theta r) = length (logl r) /\ w_rng w' = w_rng w.
Proof.
  intros E ths abp w r w' H. unfold combine_threads in H. destruct ths as [|th0 t] eqn:Hths; [discriminate|].
  rewrite <- Hths in *. clear th0 t Hths.
  apply wbind_Ok in H as (u1 & w1 & H1 & H). apply wassert_Ok in H1 as [_ ->].
  apply wbind_Ok in H as (l & w2 & H2 & H). injection H2 as H2 ->.
  apply wbind_Ok in H as (st & w3 & H3 & H). injection H3 as H3 ->.
  apply wbind_Ok in H as (u4 & w4 & H4 & H). injection H4 as H4 H4'.
  apply wbind_Ok in H as (rows & w5 & H5 & H). apply wbind_Ok in H as (u6 & w6 & H6 & H).
  injection H6 as H6 H6'. apply wbind_Ok in H as (d & w7 & H7 & H). injection H as H ->.
  apply fold_key in H5 as [K1 K2]. apply keys_cols in K1 as (K3 & K4 & K5).
  destruct (dict_cols _ _ _ _ _ _ H7) as (D1 & D2 & D3 & D4).
  destruct (drop_bad_cols _ _ H) as (B1 & B2 & _).
  rewrite B1, B2, D1, D2. split; [|split; [|split]].
  - rewrite <- (mapM_pairs _ _ H2). rewrite K3, K5, <- pair_cols. apply Permutation_map, sort_rows_perm.
  - rewrite K3. apply sort_rows_sorted.
  - rewrite !map_length. auto.
  - apply dict_rng in H7. rewrite H7, <- H6'. simpl. auto.
Qed.

(** ** Single threads *)
Record a_thread (th : run) (lab : Z) (mm : ext * Z) : Prop := {
  at_lab : thread_labels th = Some (repeat lab (length (logl th)));
  at_tmm : thread_min_max th = Some [mm];
  at_nlive : nlive_array th = repeat 1 (length (logl th));
  at_theta : length (theta th) = length (logl th);
  at_ne : logl th <> [];
  at_sorted : StronglySorted Z.le (logl th);
  at_last : last (logl th) 0 = snd mm;
  at_first : starts_below (fst mm) (nth 0 (logl th) 0) = true
}.

Definition thread_rows (th : run) (lab : Z) : list row :=
  zip_rows (logl th) (repeat lab (length (logl th))) (repeat 0 (length (logl th) - 1) ++ [-1]) (theta th).

Lemma diff_repeat : forall n, diff (repeat 1 n) = repeat 0 (n - 1).
Proof.
  induction n as [|n IH]; auto. destruct n; auto. change (repeat 1 (S (S n))) with (1 :: 1 :: repeat 1 n).
  change (diff (1 :: 1 :: repeat 1 n)) with ((1 - 1) :: diff (repeat 1 (S n))). rewrite IH. simpl.
  rewrite Nat.sub_0_r. auto.
Qed.
Lemma array_thread : forall th lab mm, a_thread th lab mm -> array_given_run th = Ok (thread_rows th lab).
Proof.
  intros th lab mm H. erewrite array_given_valid; [|apply H|apply H|..].
  - rewrite (at_nlive _ _ _ H), diff_repeat. reflexivity.
  - apply repeat_length.
  - rewrite (at_nlive _ _ _ H). apply repeat_length.
  - apply H.
Qed.

Lemma thread_rows_cols : forall th lab mm, a_thread th lab mm ->
    map r_logl (thread_rows th lab) = logl th /\
    map r_lab (thread_rows th lab) = repeat lab (length (logl th)) /\
    map r_dn (thread_rows th lab) = repeat 0 (length (logl th) - 1) ++ [-1] /\
    map r_theta (thread_rows th lab) = theta th /\
    length (thread_rows th lab) = length (logl th).
Proof.
  intros th lab mm H. pose proof (at_theta _ _ _ H) as H1. pose proof (at_ne _ _ _ H) as H2.
  assert (H3 : length (repeat 0 (length (logl th) - 1) ++ [-1]) = length (logl th)).
  { rewrite app_length, repeat_length. destruct (logl th); [congruence|]. simpl; lia. }
  assert (H4 : length (repeat lab (length (logl th))) = length (logl th)) by apply repeat_length.
  unfold thread_rows. split; [|split; [|split; [|split]]].
  - apply zip_rows_logl; auto.
  - apply zip_rows_lab; auto.
  - apply zip_rows_dn; auto.
  - apply zip_rows_theta; auto.
  - apply zip_rows_length; auto.
Qed.

Lemma zsum_zeros : forall n, zsum (repeat 0 n) = 0.
Proof. induction n; auto. Qed.
Lemma firstn_repeat : forall A (x : A) n m, firstn m (repeat x n) = repeat x (Nat.min m n).
Proof. induction n as [|n IH]; intros [|m]; simpl; auto. rewrite IH. auto. Qed.

Lemma dsum_thread : forall x th lab mm, a_thread th lab mm ->
    dsum x (thread_rows th lab) = - Z.b2z (snd mm <? x).
Proof.
  intros x th lab mm H. destruct (thread_rows_cols th lab mm H) as (R1 & R2 & R3 & R4 & R5).
  set (rows := thread_rows th lab) in *.
  assert (Hs : StronglySorted (fun a b => r_logl a <= r_logl b) rows)
    by (apply sorted_rows; rewrite R1; apply H).
  assert (Hpos : (0 < length (logl th))%nat).
  { pose proof (at_ne _ _ _ H). destruct (logl th); [congruence|simpl; lia]. }
  unfold dsum. rewrite filter_lt_firstn by auto. rewrite <- firstn_map, R3.
  pose proof (countb_le _ (fun y => r_logl y <? x) rows) as Hle.
  pose proof (countb_sorted_nth rows x (length rows - 1) Hs ltac:(lia)) as Hl.
  rewrite <- nth_logl, R1, R5, <- last_nth, (at_last _ _ _ H) in Hl by lia.
  set (m := countb (fun y => r_logl y <? x) rows) in *.
  rewrite firstn_app, repeat_length, firstn_repeat, zsum_app, zsum_zeros.
  destruct (snd mm <? x) eqn:Hx; simpl Z.b2z.
  - apply Z.ltb_lt in Hx. apply Hl in Hx.
    replace (m - (length (logl th) - 1))%nat with 1%nat by lia. reflexivity.
  - apply Z.ltb_ge in Hx.
    replace (m - (length (logl th) - 1))%nat with 0%nat; [reflexivity|].
    destruct (Nat.lt_ge_cases (length (logl th) - 1) m); [apply Hl in H0; lia|lia].
Qed.

(** ** Lists of threads; [specs] gives label and thread_min_max of each *)
Notation tspecs := (list (run * (Z * (ext * Z)))).
Definition ts_ok (x : run * (Z * (ext * Z))) : Prop := a_thread (fst x) (fst (snd x)) (snd (snd x)).
Definition ts_rows (l : tspecs) : list row := flat_map (fun x => thread_rows (fst x) (fst (snd x))) l.
Definition ts_tmm (l : tspecs) : list (ext * Z) := map (fun x => snd (snd x)) l.

Lemma ts_arrays : forall l, (forall x, In x l -> ts_ok x) ->
    mapM array_given_run (map fst l) = Ok (map (fun x => thread_rows (fst x) (fst (snd x))) l) /\
    flat_map get_tmm (map fst l) = ts_tmm l.
Proof.
  induction l as [|x t IH]; intros H; [split; auto|].
  destruct IH as [I1 I2]; [intros; apply H; right; auto|].
  pose proof (H x (or_introl eq_refl)) as Hx. cbn [map mapM flat_map].
  rewrite (array_thread _ _ _ Hx), I1. split; auto.
  unfold get_tmm at 1. rewrite (at_tmm _ _ _ Hx). simpl. f_equal. auto.
Qed.

Lemma ts_dsum : forall x l, (forall y, In y l -> ts_ok y) ->
    dsum x (ts_rows l) = - zsum (map (fun mm => Z.b2z (snd mm <? x)) (ts_tmm l)).
Proof.
  intros x l. induction l as [|y t IH]; intros H; auto.
  unfold ts_rows, ts_tmm in *. cbn [flat_map map]. rewrite dsum_app, zsum_cons.
  rewrite IH by (intros; apply H; right; auto).
  rewrite (dsum_thread x _ _ _ (H y (or_introl eq_refl))). lia.
Qed.

Lemma bal_starts : forall x tmm,
    bal x tmm = zsum (map (fun s => Z.b2z (s <? x)) (finite_starts tmm))
                - zsum (map (fun mm => Z.b2z (snd mm <? x)) tmm).
Proof.
  intros x tmm. unfold bal, finite_starts. induction tmm as [|[[|s] e] t IH]; auto.
  - cbn [flat_map map fst snd fin_lt app]. rewrite !zsum_cons, IH. cbn [Z.b2z]. lia.
  - cbn [flat_map map fst snd fin_lt app]. rewrite !zsum_cons, IH. lia.
Qed.

Lemma in_finite_starts : forall tmm s, In s (finite_starts tmm) <-> exists e, In (Fin s, e) tmm.
Proof.
  intros tmm s. unfold finite_starts. rewrite in_flat_map. split.
  - intros [[[|z] e] [H1 H2]]; simpl in H2; [destruct H2|]. destruct H2 as [->|[]]. eauto.
  - intros [e H]. exists (Fin s, e). simpl. auto.
Qed.

(** The sorted rows with the changes in nlive, before dict_given_run_array. *)
Lemma combine_threads_rows : forall E l abp (w : world E), l <> [] ->
    (forall x, In x l -> ts_ok x) ->
    (forall m e, In (Fin m, e) (ts_tmm l) -> In m (map r_logl (ts_rows l))) ->
    (abp = true -> NoDup (map r_logl (ts_rows l))) ->
    exists bs, let sorted := sort_rows E (ts_rows l) in
      let rows := fold_left (fun l i => bump i l) bs sorted in
      Forall2 (fun s i => (i < length sorted)%nat /\ r_logl (nth i sorted row0) = s)
              (finite_starts (ts_tmm l)) bs /\
      combine_threads (map fst l) abp w =
      (let* r := dict_given_run_array rows (ts_tmm l) in wlift (drop_bad_threads r)) w.
Proof.
  intros E l abp w Hne Hok Hst Hnd. destruct (ts_arrays l Hok) as [A1 A2].
  assert (Hperm : Permutation (sort_rows E (ts_rows l)) (ts_rows l)) by apply sort_rows_perm.
  assert (Hpl : Permutation (map r_logl (sort_rows E (ts_rows l))) (map r_logl (ts_rows l)))
    by (apply Permutation_map; auto).
  destruct (starts_fold E abp (finite_starts (ts_tmm l)) (sort_rows E (ts_rows l))
                        (mkW (r_seed E 0) (w_warn w))) as (bs & w1 & S1 & S2 & S3).
  { intros s Hs. apply in_finite_starts in Hs as [e He].
    apply (Permutation_in _ (Permutation_sym Hpl)). eauto. }
  { intros Ha. eapply Permutation_NoDup; [symmetry; exact Hpl|auto]. }
  exists bs. cbv zeta. split; auto.
  unfold combine_threads. destruct (map fst l) as [|y t] eqn:Hm.
  { destruct l; [congruence|discriminate]. }
  rewrite <- Hm in *. clear y t Hm. rewrite A2, A1.
  replace (length (map fst l) =? length (ts_tmm l))%nat with true
    by (symmetry; apply Nat.eqb_eq; unfold ts_tmm; rewrite !map_length; auto).
  rewrite (wbind_run _ _ _ _ _ w tt w) by reflexivity.
  rewrite (wbind_run _ _ _ _ _ w _ w) by reflexivity.
  rewrite (wbind_run _ _ _ _ _ w (w_rng w) w) by reflexivity.
  rewrite (wbind_run _ _ _ _ _ w tt (mkW (r_seed E 0) (w_warn w))) by reflexivity.
  replace (concat (map (fun x => thread_rows (fst x) (fst (snd x))) l)) with (ts_rows l)
    by (unfold ts_rows; rewrite <- flat_map_concat_map; auto).
  rewrite (wbind_run _ _ _ _ _ _ _ _ S1).
  rewrite (wbind_run _ _ _ _ _ _ tt w).
  - reflexivity.
  - unfold set_state. rewrite S2. simpl. rewrite world_eta. auto.
Qed.

(** ** C18: splitting and recombining *)
Definition run_threads (r : run) (labs : list Z) (tmm : list (ext * Z)) : tspecs :=
  map (fun k => (nth_thread r labs (Z.of_nat k) (tm tmm k), (Z.of_nat k, tm tmm k))) (seq 0 (length tmm)).

Lemma nth_take : forall A (d : A) l idx i, (i < length idx)%nat ->
    nth i (take d l idx) d = nth (nth i idx 0%nat) l d.
Proof. intros. unfold take. rewrite (map_nth_in _ _ _ d 0%nat) by auto. auto. Qed.
Lemma take_last : forall A (d : A) l idx, idx <> [] -> last (take d l idx) d = nth (last idx 0%nat) l d.
Proof.
  intros A d l idx H. rewrite last_nth, take_length, nth_take.
  - rewrite <- last_nth. auto.
  - destruct idx; [congruence|simpl; lia].
Qed.

Lemma nth_thread_ok : forall r labs tmm k, consistent r labs tmm -> (k < length tmm)%nat ->
    (forall k f, (k < length tmm)%nat -> first_of labs (Z.of_nat k) f ->
       starts_below (fst (nth k tmm (NInf, 0))) (nth f (logl r) 0) = true) ->
    a_thread (nth_thread r labs (Z.of_nat k) (tm tmm k)) (Z.of_nat k) (tm tmm k).
Proof.
  intros r labs tmm k (Hl & Ht & V1 & V2 & V3 & V4 & V5 & V6 & V7 & V8) Hk S1.
  rewrite map_length in V6, V8.
  assert (Hin : In (Z.of_nat k) labs) by (apply V6; lia).
  pose proof (hd_first _ _ Hin) as Hf. pose proof (last_last _ _ Hin) as Hla.
  fold (thread_inds labs (Z.of_nat k)) in Hf, Hla.
  assert (Hne : thread_inds labs (Z.of_nat k) <> []).
  { unfold thread_inds. destruct Hf as (F1 & F2 & _). intros Hn.
    assert (Hi : In (hd 0%nat (thread_inds labs (Z.of_nat k))) (where_ (Z.eqb (Z.of_nat k)) labs)).
    { apply (in_where _ _ 0). split; auto. apply Z.eqb_eq. auto. }
    rewrite Hn in Hi. destruct Hi. }
  unfold nth_thread. constructor; cbn [logl theta nlive_array thread_labels thread_min_max];
    rewrite ?take_length; auto.
  - intros H. apply map_eq_nil in H. auto.
  - apply take_sorted; auto; [apply where_sorted|].
    intros i Hi. apply where_label in Hi. lia.
  - rewrite take_last by auto. destruct (V8 k Hk) as [_ VL]. rewrite <- (VL _ Hla).
    rewrite (map_nth_in _ _ _ 0 (NInf, 0)) by auto. auto.
  - rewrite nth_take by (destruct (thread_inds labs (Z.of_nat k)); [congruence|simpl; lia]).
    rewrite <- hd_nth. apply (S1 k); auto.
Qed.

Lemma nth_repeat_in : forall (z : Z) m j, (j < m)%nat -> nth j (repeat z m) 0 = z.
Proof. intros z m. induction m as [|m IH]; intros [|j] H; simpl; try lia; auto. apply IH; lia. Qed.

Definition run_key (r : run) (labs : list Z) (i : nat) : Z * (Z * list Z) :=
  (nth i (logl r) 0, (nth i labs 0, nth i (theta r) [])).

Lemma key_nth : forall rows, map key rows =
    map (fun i => (nth i (map r_logl rows) 0, (nth i (map r_lab rows) 0, nth i (map r_theta rows) [])))
        (seq 0 (length rows)).
Proof.
  intros rows. apply nth_ext' with (d := (0, (0, []))).
  - rewrite !map_length, seq_length. auto.
  - rewrite map_length. intros i Hi. rewrite nth_map_seq by auto.
    rewrite (map_nth_in _ _ _ _ row0) by auto. unfold key.
    rewrite !(map_nth_in _ _ _ _ row0) by auto. auto.
Qed.

Lemma run_threads_keys : forall r labs tmm, consistent r labs tmm ->
    (forall x, In x (run_threads r labs tmm) -> ts_ok x) ->
    Permutation (map key (ts_rows (run_threads r labs tmm))) (map (run_key r labs) (seq 0 (length (logl r)))).
Proof.
  intros r labs tmm (Hl & Ht & V1 & V2 & V3 & V4 & V5 & V6 & V7 & V8) Hok. rewrite map_length in V6.
  replace (map key (ts_rows (run_threads r labs tmm))) with
      (map (run_key r labs) (flat_map (thread_inds labs) (zrange (length tmm)))).
  - apply Permutation_map. rewrite <- V2. apply label_partition. intros x Hx. apply V6; auto.
  - unfold ts_rows, run_threads, zrange.
    assert (Hk : forall k, In k (seq 0 (length tmm)) ->
               map (run_key r labs) (thread_inds labs (Z.of_nat k)) =
               map key (thread_rows (nth_thread r labs (Z.of_nat k) (tm tmm k)) (Z.of_nat k))).
    { intros k Hk.
      assert (Ha : a_thread (nth_thread r labs (Z.of_nat k) (tm tmm k)) (Z.of_nat k) (tm tmm k)).
      { apply (Hok (nth_thread r labs (Z.of_nat k) (tm tmm k), (Z.of_nat k, tm tmm k))).
        apply in_map_iff. exists k. auto. }
      destruct (thread_rows_cols _ _ _ Ha) as (R1 & R2 & R3 & R4 & R5).
      rewrite key_nth, R1, R2, R4, R5. unfold nth_thread. cbn [logl theta]. rewrite take_length.
      apply nth_ext' with (d := (0, (0, []))).
      - rewrite !map_length, seq_length. auto.
      - rewrite map_length. intros i Hi. rewrite nth_map_seq by auto.
        rewrite (map_nth_in _ _ _ _ 0%nat) by auto. unfold run_key.
        rewrite !nth_take by auto. f_equal. f_equal.
        rewrite (nth_repeat_in (Z.of_nat k)) by auto.
        assert (Hin : In (nth i (thread_inds labs (Z.of_nat k)) 0%nat) (thread_inds labs (Z.of_nat k)))
          by (apply nth_In; auto).
        apply where_label in Hin. tauto. }
    revert Hk. generalize (seq 0 (length tmm)). clear. induction l as [|k t IH]; intros Hk; auto.
    cbn [map flat_map]. rewrite !map_app. f_equal.
    + apply Hk. left; auto.
    + apply IH. intros. apply Hk. right; auto.
Qed.

Lemma triple_sorted_eq : forall l m : list (Z * (Z * list Z)),
    NoDup (map fst l) -> StronglySorted Z.le (map fst l) -> StronglySorted Z.le (map fst m) ->
    Permutation l m -> l = m.
Proof.
  intros l m Hnd Hl Hm Hp. rewrite ssorted_map in Hl, Hm.
  apply (ssorted_perm_eq _ (fun x y => fst x <= fst y)); auto.
  intros x y Hx Hy Hxy Hyx. destruct (In_nth _ _ (0, (0, [])) Hx) as [i [Hi Hi']].
  destruct (In_nth _ _ (0, (0, [])) Hy) as [j [Hj Hj']].
  assert (He : i = j).
  { apply (proj1 (NoDup_nth (map fst l) 0) Hnd); rewrite ?map_length; auto.
    rewrite !(map_nth_in _ _ _ 0 (0, (0, []))) by auto. rewrite Hi', Hj'. lia. }
  congruence.
Qed.

(** combine_threads of threads with distinct logls which between them form a
    complete set. *)
Theorem join_rows : forall E l abp (w : world E), l <> [] -> (forall x, In x l -> ts_ok x) ->
    NoDup (map r_logl (ts_rows l)) ->
    (forall m e, In (Fin m, e) (ts_tmm l) -> In m (map r_logl (ts_rows l))) ->
    tspec (ts_rows l) (ts_tmm l) ->
    exists rows, combine_threads (map fst l) abp w =
      (let* r := dict_given_run_array rows (ts_tmm l) in wlift (drop_bad_threads r)) w /\
      rows <> [] /\
      StronglySorted Z.le (map r_logl rows) /\ Permutation (map key rows) (map key (ts_rows l)) /\
      tspec rows (ts_tmm l) /\ balanced rows (ts_tmm l).
Proof.
  intros E l abp w Hne Hok Hnd Hst Ht.
  destruct (combine_threads_rows E l abp w Hne Hok Hst ltac:(auto)) as (bs & B1 & B2).
  cbv zeta in B1, B2. set (sorted := sort_rows E (ts_rows l)) in *.
  set (rows := fold_left (fun l i => bump i l) bs sorted) in *.
  assert (Hk : map key rows = map key sorted) by apply fold_bump_key.
  assert (Hkp : Permutation (map key rows) (map key (ts_rows l))).
  { rewrite Hk. apply Permutation_map, sort_rows_perm. }
  destruct (keys_cols _ _ Hk) as (K1 & K2 & K3).
  assert (Hlg : Permutation (map r_logl rows) (map r_logl (ts_rows l))).
  { rewrite K1. apply Permutation_map, sort_rows_perm. }
  assert (Hs : StronglySorted Z.le (map r_logl rows)) by (rewrite K1; apply sort_rows_sorted).
  assert (Hrne : rows <> []).
  { intros Hn. rewrite Hn in Hlg. simpl in Hlg. apply Permutation_nil in Hlg.
    destruct l as [|x t]; [congruence|]. pose proof (Hok x (or_introl eq_refl)) as Hx.
    destruct (thread_rows_cols _ _ _ Hx) as (R1 & _). unfold ts_rows in Hlg. cbn [flat_map] in Hlg.
    rewrite map_app in Hlg. apply app_eq_nil in Hlg as [Hlg _]. rewrite R1 in Hlg.
    apply (at_ne _ _ _ Hx); auto. }
  exists rows. split; [|split; [|split; [|split; [|split]]]]; auto.
  - apply (tspec_same (ts_rows l)); auto. unfold same_labs.
    assert (Hm : forall a, map (fun x => (r_logl x, r_lab x)) a =
                           map (fun p => (fst p, fst (snd p))) (map key a)).
    { intros a. rewrite map_map. auto. }
    rewrite !Hm. apply Permutation_map. symmetry. auto.
  - intros x. unfold rows. rewrite (fold_bump_dsum x _ _ _ B1).
    rewrite (dsum_perm x sorted (ts_rows l)) by apply sort_rows_perm.
    rewrite ts_dsum by auto. rewrite bal_starts. lia.
Qed.

(** Threads of a complete run, joined: all but the nlive column is as in the
    run before dict_given_run_array. *)
Theorem split_rows : forall E r labs tmm abp (w : world E), complete_run r labs tmm ->
    exists rows,
      (let* ths := get_run_threads r in combine_threads ths abp) w =
      (let* r := dict_given_run_array rows tmm in wlift (drop_bad_threads r)) w /\
      rows <> [] /\ map r_logl rows = logl r /\ map r_lab rows = labs /\ map r_theta rows = theta r /\
      StronglySorted Z.le (map r_logl rows) /\ NoDup (map r_logl rows) /\
      tspec rows tmm /\ balanced rows tmm.
Proof.
  intros E r labs tmm abp w Hc.
  destruct (complete_parts r labs tmm Hc) as (P1 & P2 & P3 & P4 & P5 & P6 & P7 & P8 & P9 & P10).
  pose proof Hc as (Hcon & Hnd & S1 & S2 & S3).
  assert (Hok : forall x, In x (run_threads r labs tmm) -> ts_ok x).
  { intros x Hx. apply in_map_iff in Hx as [k [<- Hk]]. apply in_seq in Hk.
    apply nth_thread_ok; auto. lia. }
  assert (Htm : ts_tmm (run_threads r labs tmm) = tmm).
  { unfold ts_tmm, run_threads. rewrite map_map. simpl. symmetry. apply list_as_map. }
  pose proof (run_threads_keys r labs tmm Hcon Hok) as Hkeys.
  set (R := zip_rows (logl r) labs (repeat 0 (length (logl r))) (theta r)).
  pose proof (rows_cols r labs tmm Hc (repeat 0 (length (logl r))) (repeat_length _ _)) as (R1 & R2 & R3 & R4 & R5).
  pose proof (complete_tspec r labs tmm Hc (repeat 0 (length (logl r))) (repeat_length _ _)) as HtR.
  fold R in R1, R2, R3, R4, R5, HtR.
  assert (HkR : map key R = map (run_key r labs) (seq 0 (length (logl r)))).
  { rewrite key_nth, R1, R2, R4, R5. auto. }
  rewrite <- HkR in Hkeys.
  assert (Hlg : Permutation (map r_logl (ts_rows (run_threads r labs tmm))) (logl r)).
  { rewrite <- R1. apply (Permutation_map fst) in Hkeys. rewrite !map_map in Hkeys. exact Hkeys. }
  assert (Hne : run_threads r labs tmm <> []).
  { intros H. unfold run_threads in H. apply map_eq_nil in H. destruct tmm; [destruct P10|discriminate]. }
  destruct (join_rows E (run_threads r labs tmm) abp w) as (rows & J1 & J2 & J3 & J4 & J5 & J6); auto.
  - eapply Permutation_NoDup; [symmetry; eauto|auto].
  - rewrite Htm. intros m e Hin. apply (Permutation_in _ (Permutation_sym Hlg)). eauto.
  - rewrite Htm. apply (tspec_same R); auto. unfold same_labs.
    assert (Hm : forall a, map (fun x => (r_logl x, r_lab x)) a =
                           map (fun p => (fst p, fst (snd p))) (map key a)).
    { intros a. rewrite map_map. auto. }
    rewrite !Hm. apply Permutation_map. symmetry. auto.
  - rewrite Htm in J1, J5, J6. exists rows.
    assert (He : map key rows = map key R).
    { apply triple_sorted_eq.
      - rewrite map_map. change (fun x => fst (key x)) with r_logl.
        eapply Permutation_NoDup; [|exact Hnd]. rewrite <- Hlg.
        apply (Permutation_map fst) in J4. rewrite !map_map in J4. symmetry. exact J4.
      - rewrite map_map. exact J3.
      - rewrite map_map. change (fun x => fst (key x)) with r_logl. rewrite R1. auto.
      - rewrite J4. auto. }
    destruct (keys_cols _ _ He) as (K1 & K2 & K3).
    split; [|split; [|split; [|split; [|split; [|split; [|split; [|split]]]]]]]; auto; try congruence.
    rewrite (wbind_run _ _ _ _ _ _ _ _ (get_run_threads_spec E r labs tmm w Hcon)).
    replace (map (fun k => nth_thread r labs (Z.of_nat k) (tm tmm k)) (seq 0 (length tmm)))
      with (map fst (run_threads r labs tmm)) by (unfold run_threads; rewrite map_map; auto).
    rewrite J1. auto.
Qed.

Lemma drop_good : forall rows tmm nl, rows <> [] -> StronglySorted Z.le (map r_logl rows) ->
    tspec rows tmm -> In NInf (map fst tmm) ->
    drop_bad_threads (mkRun (map r_logl rows) (map r_theta rows) nl (Some (map r_lab rows)) (Some tmm) None None) =
    Ok (mkRun (map r_logl rows) (map r_theta rows) nl (Some (map r_lab rows)) (Some tmm) None None).
Proof.
  intros rows tmm nl Hne Hs Ht Hn. unfold drop_bad_threads.
  match goal with |- context [check_ns_run_threads ?x] => assert (Hck : check_ns_run_threads x = Ok tt) end.
  { pose proof (tspec_columns rows tmm Ht Hs Hn) as (V1 & V2 & V3 & V4 & V5 & V6 & V7 & V8).
    eapply check_threads_ok; [reflexivity|reflexivity|]. rewrite map_length in V6, V8. auto. }
  rewrite Hck. auto.
Qed.

Theorem split_join : forall E r labs tmm abp (w : world E), complete_run r labs tmm ->
    starts_above tmm (min_list (logl r)) ->
    (let* ths := get_run_threads r in combine_threads ths abp) w =
    (Ok (mkRun (logl r) (theta r) (nlive_array r) (Some labs) (Some tmm) None None), w).
Proof.
  intros E r labs tmm abp w Hc Hsa.
  destruct (split_rows E r labs tmm abp w Hc) as (rows & -> & Hne & K1 & K2 & K3 & Hs & Hnd & Ht & Hb).
  rewrite <- K1 in Hsa.
  rewrite (wbind_run _ _ _ _ _ _ _ _ (dict_complete E rows tmm w Hne Hs Hnd Ht Hb Hsa)).
  unfold wlift. rewrite drop_good; auto.
  - rewrite K1, K2, K3. f_equal. f_equal. f_equal.
    destruct (complete_parts r labs tmm Hc) as (P1 & P2 & P3 & P4 & P5 & P6 & P7 & P8 & P9 & P10).
    destruct Hc as (Hcon & _ & S1 & S2 & S3). apply nth_ext' with (d := 0).
    + rewrite map_length. auto.
    + rewrite map_length. intros i Hi. rewrite (map_nth_in _ _ _ 0 0) by auto. symmetry. auto.
  - apply (some_ninf rows tmm Ht Hne Hsa).
Qed.
