(** C38 - C41, C65, C66: bootstrap errors and implementation errors. *)
From Coq Require Import Lra.
From Verif Require Import Base ModelRun ModelBoot ModelParallel ModelReal ModelStats Envs
     Spec SpecRun SpecReal ProofBase ProofMonad ProofDet ProofRun ProofComb ProofJoin ProofBoot
     ProofReal ProofInterp ProofParallel ProofStats PropWeights PropEstimators.
Local Open Scope R_scope.

(** ** C38 *)

(** With flip_skew each row X of finite bootstrap values becomes 2 mean - X;
    mean and variance stay, and flipping again gives X back. *)
Theorem C38_flip_skew : forall E srt r l ns n seeds (w : world E) rows w',
    run_bootstrap_values srt r l ns false n seeds w = (Ok rows, w') ->
    exists rows', run_bootstrap_values srt r l ns true n seeds w = (Ok rows', w') /\
      length rows = length l /\ length rows' = length l /\
      forall j xs, xs <> [] -> nth_error rows j = Some (map Some xs) ->
        exists ys, nth_error rows' j = Some (map Some ys) /\ length ys = length xs /\
          (forall i, (i < length xs)%nat -> nth i ys 0 = 2 * mean xs - nth i xs 0) /\
          mean ys = mean xs /\ variance ys = variance xs /\
          map (fun y => 2 * mean ys - y) ys = xs.
Proof.
  intros E srt r l ns n seeds w rows w' H.
  apply bootstrap_values_inv in H as (cols & Hc & ->).
  exists (map flip_row (rows_of (length l) cols)).
  split; [|split; [apply rows_of_length|split; [rewrite map_length; apply rows_of_length|]]].
  { unfold run_bootstrap_values. rewrite (wbind_run _ _ _ _ _ _ _ _ Hc). reflexivity. }
  intros j xs Hne Hj. exists (map (fun x => 2 * mean xs - x) xs).
  assert (Hm : mean (map (fun x => 2 * mean xs - x) xs) = mean xs).
  { rewrite flip_as_affine, mean_affine by auto. lra. }
  split; [|split; [apply map_length|split; [|split; [auto|split]]]].
  - rewrite (map_nth_error _ _ _ Hj), flip_row_some by auto. auto.
  - intros i Hi. apply (map_nth_in _ _ (fun x => 2 * mean xs - x)). auto.
  - rewrite flip_as_affine, variance_affine by auto. lra.
  - rewrite Hm, map_map. rewrite <- (map_id xs) at 2. apply map_ext. intros. lra.
Qed.
Print Assumptions C38_flip_skew.

(** So flip_skew does not change run_std_bootstrap, with or without nan values. *)
Theorem C38_std_unchanged : forall E srt r l ns n seeds (w : world E),
    run_std_bootstrap srt r l ns true n seeds w = run_std_bootstrap srt r l ns false n seeds w.
Proof.
  intros. unfold run_std_bootstrap, run_bootstrap_values, wbind.
  destruct (bootstrap_columns _ r ns n seeds w) as [[cols|e] w1]; auto. cbn [wret].
  unfold wret. do 2 f_equal. rewrite map_map. apply map_ext. intros. apply flip_std.
Qed.
Print Assumptions C38_std_unchanged.

(** run_std_bootstrap is the square root of the unbiased variance. *)
Theorem C38_std_bootstrap : forall E srt r l ns fs n seeds (w : world E) rows w',
    run_bootstrap_values srt r l ns fs n seeds w = (Ok rows, w') ->
    exists out, run_std_bootstrap srt r l ns fs n seeds w = (Ok out, w') /\
      Forall2 (fun row s => (forall xs, (2 <= n)%nat -> row = map Some xs -> s = Some (sqrt (variance xs))) /\
                            (In None row \/ (n <= 1)%nat -> s = None)) rows out.
Proof.
  intros E srt r l ns fs n seeds w rows w' H.
  assert (Hlen : forall row, In row rows -> length row = n).
  { apply bootstrap_values_inv in H as (cols & Hc & ->). apply bootstrap_columns_length in Hc as [Hc _].
    intros row Hin. unfold rows_of in Hin. destruct fs.
    - apply in_map_iff in Hin as (r0 & <- & Hin). rewrite flip_row_length.
      apply in_map_iff in Hin as (j & <- & _). rewrite nth_row_length. auto.
    - apply in_map_iff in Hin as (j & <- & _). rewrite nth_row_length. auto. }
  exists (map np_std rows). split.
  { unfold run_std_bootstrap. rewrite (wbind_run _ _ _ _ _ _ _ _ H). reflexivity. }
  clear H. induction rows as [|row rows IH]; constructor.
  - assert (Hr : length row = n) by (apply Hlen; left; auto). split.
    + intros xs Hn ->. rewrite map_length in Hr. unfold np_std. rewrite all_finite_some. apply std_variance. lia.
    + intros [Hin|Hn]; unfold np_std.
      * rewrite all_finite_in; auto.
      * destruct (all_finite row) as [xs|] eqn:Hf; auto. apply all_finite_inv in Hf. subst row.
        rewrite map_length in Hr. apply std_none. lia.
  - apply IH. intros; apply Hlen; right; auto.
Qed.
Print Assumptions C38_std_bootstrap.

(** A run whose bootstrap values differ between replications. *)
Definition run_bs : run :=
  (mkRun [1; 2; 5] [[10]; [20]; [50]] [2; 2; 1] (Some [0; 1; 0]) (Some [(NInf, 5); (NInf, 2)]) None None)%Z.
Example C38_example : exists w',
    run_bootstrap_values r_isort run_bs [CountSamples] false false 2
      [BKeep; BKeep] (@mkW (script_env []) [0; 0; 1; 1]%nat []) =
    (Ok [map Some [4; 2]], w').
Proof.
  eexists. unfold run_bootstrap_values. cbn -[INR]. unfold wret.
  replace (INR 4) with 4 by (cbn; lra). replace (INR 2) with 2 by (cbn; lra). reflexivity.
Qed.

(** ** C39 *)

Lemma one_thread_resample : forall E r labs e ns b (w : world E), accepted_seed b ->
    complete_run r labs [(NInf, e)] ->
    (ns = true -> forall k, settings r = Some (Some k) -> k = 1%nat) ->
    exists th, (forall w' : world E, get_run_threads r w' = (Ok [th], w')) /\
    fst (bootstrap_resample_run r (Some [th]) ns b w) =
    Ok (mkRun (logl r) (theta r) (nlive_array r) (Some labs) (Some [(NInf, e)]) None (settings r)).
Proof.
  intros E r labs e ns b w Hacc Hc Hk.
  set (th := nth_thread r labs (Z.of_nat 0) (NInf, e)). exists th.
  assert (Hg : forall w' : world E, get_run_threads r w' = (Ok [th], w')).
  { intros w'. rewrite (get_run_threads_spec E r labs [(NInf, e)]) by apply Hc. reflexivity. }
  split; auto.
  assert (Hcomb : forall w' : world E, combine_threads [th] false w' =
            (Ok (mkRun (logl r) (theta r) (nlive_array r) (Some labs) (Some [(NInf, e)]) None None), w')).
  { intros w'. assert (Hs : starts_above [(NInf, e)] (min_list (logl r))).
    { intros m e' [H|[]]. discriminate. }
    pose proof (split_join E r labs _ false w' Hc Hs) as H.
    rewrite (wbind_run _ _ _ _ _ _ _ _ (Hg w')) in H. auto. }
  assert (Hr : forall w' : world E, exists w'', randint 0 1 1 w' = (Ok [0%nat], w'')).
  { intros w'. destruct (randint_ok E 0 1 1 w' (or_introl Nat.lt_0_1)) as (li & w'' & H1 & H2 & H3 & _).
    exists w''. rewrite H1. destruct li as [|i [|j t]]; try discriminate.
    assert (i < 1)%nat by (apply H3; left; auto). assert (i = 0)%nat as -> by lia. auto. }
  assert (Hd : forall w' : world E, exists w'', draw_inds r 1 ns w' = (Ok [0%nat], w'')).
  { intros w'. unfold draw_inds. destruct ns; auto. destruct (settings r) as [[k|]|] eqn:Hset.
    - rewrite (Hk eq_refl k eq_refl) in *. destruct Hc as ((_ & Ht & _) & _). rewrite Ht.
      cbn [firstn forallb is_ninf fst andb wassert assertb].
      destruct (Hr w') as (w'' & H1). exists w''. unfold wassert, assertb, wbind at 1, wlift.
      rewrite (wbind_run _ _ _ _ _ _ _ _ H1). reflexivity.
    - unfold wbind, warn. apply Hr.
    - unfold wbind, warn. apply Hr. }
  unfold bootstrap_resample_run. unfold wbind at 1, get_state.
  destruct (apply_seed b w) as [[u|x] w1] eqn:Hs; [|rewrite apply_seed_state in Hs by auto; discriminate].
  rewrite (wbind_run _ _ _ _ _ _ _ _ Hs). unfold wbind at 1, wret at 1. cbn [length].
  destruct (Hd w1) as (w2 & H2). rewrite (wbind_run _ _ _ _ _ _ _ _ H2).
  assert (H3 : wmapM (get_thread [th]) [0%nat] w2 = (Ok [th], w2)) by reflexivity.
  rewrite (wbind_run _ _ _ _ _ _ _ _ H3), (wbind_run _ _ _ _ _ _ _ _ (Hcomb w2)).
  destruct (seeded b); reflexivity.
Qed.

Lemma one_thread_columns : forall E srt r labs e l ns n seeds (w : world E) ts, Forall accepted_seed seeds ->
    complete_run r labs [(NInf, e)] ->
    (ns = true -> forall k, settings r = Some (Some k) -> k = 1%nat) -> length seeds = n ->
    run_estimators srt r l None = Ok ts ->
    exists w', bootstrap_columns (fun rr => run_estimators srt rr l None) r ns n seeds w = (Ok (repeat ts n), w').
Proof.
  intros E srt r labs e l ns n seeds w ts Hacc Hc Hk Hn Ht. unfold bootstrap_columns.
  rewrite Hn, Nat.eqb_refl. unfold wassert at 1, assertb, wlift at 1, wbind at 1.
  destruct (one_thread_resample E r labs e ns BKeep w I Hc Hk) as (th & Hg & _).
  rewrite (wbind_run _ _ _ _ _ _ _ _ (Hg w)). rewrite <- Hn. clear Hn. revert w.
  induction seeds as [|b seeds IH]; intros w; [eexists; reflexivity|].
  destruct (one_thread_resample E r labs e ns b w (Forall_inv Hacc) Hc Hk) as (th' & Hg' & Hb).
  assert (th' = th) as -> by (specialize (Hg w); specialize (Hg' w); congruence).
  cbn [wmapM length repeat].
  destruct (bootstrap_resample_run r (Some [th]) ns b w) as [res w1] eqn:Hres. cbn [fst] in Hb. subst res.
  assert (H1 : (let* rr := bootstrap_resample_run r (Some [th]) ns b in
                wlift (run_estimators srt rr l None)) w = (Ok ts, w1)).
  { rewrite (wbind_run _ _ _ _ _ _ _ _ Hres). unfold wlift. f_equal. exact Ht. }
  rewrite (wbind_run _ _ _ _ _ _ _ _ H1). destruct (IH (Forall_inv_tail Hacc) w1) as (w2 & H2).
  rewrite (wbind_run _ _ _ _ _ _ _ _ H2). eexists. reflexivity.
Qed.

Lemma nth_error_eq : forall A (l m : list A), (forall j, nth_error l j = nth_error m j) -> l = m.
Proof.
  induction l as [|x l IH]; intros [|y m] H; auto; try (specialize (H 0%nat); discriminate).
  f_equal; [specialize (H 0%nat); cbn in H; congruence|]. apply IH. intros j. apply (H (S j)).
Qed.
Lemma map_repeat : forall A B (f : A -> B) x n, map f (repeat x n) = repeat (f x) n.
Proof. induction n; cbn; auto. f_equal. auto. Qed.
Lemma repeat_mean : forall t n, (0 < n)%nat -> mean (repeat t n) = t.
Proof.
  intros t n Hn. unfold mean. change sumR with rsum. rewrite repeat_length.
  assert (H : rsum (repeat t n) = INR n * t).
  { clear. induction n as [|n IH]; cbn [repeat]; [unfold rsum; cbn; lra|]. rewrite rsum_cons, IH, S_INR. lra. }
  rewrite H. assert (0 < INR n) by (apply lt_0_INR; auto). field. lra.
Qed.
Lemma repeat_variance : forall t n, (0 < n)%nat -> variance (repeat t n) = 0.
Proof.
  intros t n Hn. unfold variance. rewrite repeat_mean by auto. change sumR with rsum.
  assert (H : map (fun x => (x - t) ^ 2) (repeat t n) = map (fun _ => 0) (repeat t n)).
  { apply map_ext_in. intros x Hx. apply repeat_spec in Hx. subst. ring. }
  rewrite H, rsum_const. lra.
Qed.
Lemma repeat_flip : forall v n, flip_row (repeat v n) = repeat v n.
Proof.
  intros [t|] n.
  - destruct n as [|n]; [reflexivity|]. rewrite <- (map_repeat _ _ Some), flip_row_some by discriminate.
    rewrite repeat_mean by lia. f_equal. rewrite <- (map_id (repeat t (S n))) at 2. apply map_ext_in.
    intros x Hx. apply repeat_spec in Hx. subst. lra.
  - destruct n as [|n]; [reflexivity|]. rewrite flip_row_none by (left; auto). apply map_repeat.
Qed.

(** A run which is a single thread. *)
Theorem C39_one_thread : forall E srt r labs e l ns fs n seeds (w : world E) ts, Forall accepted_seed seeds ->
    complete_run r labs [(NInf, e)] ->
    (ns = true -> forall k, settings r = Some (Some k) -> k = 1%nat) ->
    length seeds = n -> (2 <= n)%nat -> sorts srt -> run_estimators srt r l None = Ok ts ->
    (forall b, accepted_seed b -> exists rr, fst (bootstrap_resample_run r None ns b w) = Ok rr /\
       logl rr = logl r /\ theta rr = theta r /\ nlive_array rr = nlive_array r) /\
    fst (run_std_bootstrap srt r l ns fs n seeds w) = Ok (map (option_map (fun _ => 0)) ts) /\
    (forall c, fst (run_ci_bootstrap srt r l c ns fs n seeds w) = Ok ts).
Proof.
  intros E srt r labs e l ns fs n seeds w ts Hacc Hc Hk Hn H2 Hs Ht.
  destruct (one_thread_columns E srt r labs e l ns n seeds w ts Hacc Hc Hk Hn Ht) as (w' & Hcol).
  pose proof (run_estimators_length _ _ _ _ _ Ht) as Hlt.
  assert (Hrows : rows_of (length l) (repeat ts n) = map (fun v => repeat v n) ts).
  { unfold rows_of. rewrite <- Hlt. apply nth_ext with [] [].
    - rewrite !map_length, seq_length. auto.
    - rewrite map_length, seq_length. intros j Hj. rewrite nth_map_seq by auto.
      rewrite (map_nth_in _ _ _ _ None) by auto. unfold nth_row. apply map_repeat. }
  assert (Hbs : run_bootstrap_values srt r l ns fs n seeds w = (Ok (map (fun v => repeat v n) ts), w')).
  { unfold run_bootstrap_values. rewrite (wbind_run _ _ _ _ _ _ _ _ Hcol). rewrite Hrows.
    unfold wret. do 2 f_equal. destruct fs; auto. rewrite map_map. apply map_ext. intros. apply repeat_flip. }
  split; [|split].
  - intros b Hb0. destruct (one_thread_resample E r labs e ns b w Hb0 Hc Hk) as (th & Hg & Hb).
    assert (Heq : forall w0 : world E, fst (bootstrap_resample_run r None ns b w0) =
                  fst (bootstrap_resample_run r (Some [th]) ns b w0)).
    { intros w0. unfold bootstrap_resample_run. unfold wbind at 1 8, get_state.
      unfold wbind at 1 7. destruct (apply_seed b w0) as [[u|x] w1]; auto.
      rewrite (wbind_run _ _ _ _ _ _ _ _ (Hg w1)). reflexivity. }
    rewrite Heq, Hb. eexists. split; [reflexivity|]. auto.
  - unfold run_std_bootstrap. rewrite (wbind_run _ _ _ _ _ _ _ _ Hbs). cbn [fst wret]. unfold wret. cbn [fst].
    f_equal. rewrite map_map. apply map_ext. intros [t|]; cbn [option_map].
    + rewrite <- (map_repeat _ _ Some). unfold np_std. rewrite all_finite_some.
      rewrite std_variance by (rewrite repeat_length; lia). rewrite repeat_variance by lia. rewrite sqrt_0. auto.
    + unfold np_std. rewrite all_finite_in; auto. destruct n; [lia|left; auto].
  - intros c. destruct (ci_run E srt r l ns fs n seeds w _ w' ts c Hs Hbs Ht) as (out & Ho & Hl & Hnone & Hsome); [lia|].
    rewrite Ho. cbn [fst]. f_equal. apply nth_error_eq. intros j.
    destruct (nth_error ts j) as [[t|]|] eqn:Hj.
    + destruct (Hsome j (repeat t n) t) as [Hv _]; auto.
      { rewrite (map_nth_error _ _ _ Hj). f_equal. symmetry. apply map_repeat. }
      rewrite Hv. do 2 f_equal.
      assert (Hsv : take 0 (repeat t n) (srt (repeat t n)) = repeat t n).
      { apply sorted_values; auto. clear. induction n; cbn; constructor; auto.
        rewrite Forall_forall. intros x Hx. apply repeat_spec in Hx. subst. lra. }
      rewrite Hsv. replace (cdf n) with (cdf (length (repeat t n))) by (rewrite repeat_length; auto).
      assert (Hb : t <= interp (1 - c) (cdf (length (repeat t n))) (repeat t n) <= t); [|lra].
      apply interp_cdf_bounds.
      * destruct n; [lia|discriminate].
      * rewrite <- Hsv. rewrite Hsv. clear. induction n; cbn; constructor; auto.
        rewrite Forall_forall. intros x Hx. apply repeat_spec in Hx. subst. lra.
      * intros v Hv'. apply repeat_spec in Hv'. subst. lra.
    + auto.
    + apply nth_error_None. apply nth_error_None in Hj. lia.
Qed.
Print Assumptions C39_one_thread.
Definition run_single : run :=
  (mkRun [3; 4; 9] [[1]; [2]; [5]] [1; 1; 1] (Some [0; 0; 0]) (Some [(NInf, 9)]) None (Some (Some 1%nat)))%Z.
Lemma run_single_complete : complete_run run_single [0; 0; 0]%Z [(NInf, 9%Z)].
Proof.
  unfold complete_run, consistent, valid_columns, run_single.
  cbn [logl theta nlive_array thread_labels thread_min_max length map fst snd ext_opt]. split.
  { split; [reflexivity|]. split; [reflexivity|].
    split; [reflexivity|]. split; [reflexivity|]. split; [reflexivity|].
    split; [repeat (constructor; try lia)|]. split; [reflexivity|].
    split; [simpl; intros; lia|]. split; [simpl; auto|].
    intros k Hk. split.
    - intros f m (F1 & F2 & F3). cbn [length] in F1.
      destruct k as [|k]; simpl; try lia; try discriminate.
    - intros m (L1 & L2 & L3). cbn [length] in L1, L3.
      destruct k as [|k]; try lia. destruct m as [|[|[|m]]]; simpl in *; try lia.
      + specialize (L3 2%nat ltac:(lia)). simpl in L3. lia.
      + specialize (L3 2%nat ltac:(lia)). simpl in L3. lia. }
  split; [repeat (constructor; try (simpl; lia))|]. split.
  - intros k f Hk _. destruct k as [|k]; [reflexivity|simpl in Hk; lia].
  - split; [intros m e [H|[]]; discriminate|].
    intros i Hi. simpl in Hi. destruct i as [|[|[|i]]]; try reflexivity; lia.
Qed.
Example C39_example : exists ts, run_estimators r_isort run_single [CountSamples; ParamMean 4 true] None = Ok ts /\
    complete_run run_single [0; 0; 0]%Z [(NInf, 9%Z)] /\ settings run_single = Some (Some 1%nat).
Proof. eexists. split; [reflexivity|]. split; [apply run_single_complete|reflexivity]. Qed.

(** ** C40 *)

(** The interval is 2 T - G^-1(1 - cred_int), with G^-1 the quantile function
    of the values of run_bootstrap_values. *)
Theorem C40_ci_bootstrap : forall E srt r l ns fs n seeds (w : world E) rows w1 ts,
    sorts srt -> run_bootstrap_values srt r l ns fs n seeds w = (Ok rows, w1) ->
    run_estimators srt r l None = Ok ts -> (0 < n)%nat ->
    forall j xs t, nth_error rows j = Some (map Some xs) -> nth_error ts j = Some (Some t) ->
    exists s q, Permutation s xs /\ StronglySorted Rle s /\ quantile_of s q /\
      (forall c, exists out, run_ci_bootstrap srt r l c ns fs n seeds w = (Ok out, w1) /\
                             length out = length l /\ nth_error out j = Some (Some (2 * t - q (1 - c)))) /\
      (forall c c', c <= c' -> 2 * t - q (1 - c) <= 2 * t - q (1 - c')) /\
      (forall c lo hi, (forall x, In x xs -> lo <= x <= hi) ->
                       2 * t - hi <= 2 * t - q (1 - c) <= 2 * t - lo).
Proof.
  intros E srt r l ns fs n seeds w rows w1 ts Hs Hb Ht Hn j xs t Hj Htj.
  set (s := take 0 xs (srt xs)).
  assert (Hps : Permutation s xs) by (apply take_perm; apply Hs).
  assert (Hss : StronglySorted Rle s).
  { apply ssorted_nth_R. intros i k Hik. unfold s in *. rewrite take_length in Hik.
    rewrite !nth_take by lia. apply (proj2 Hs).
    rewrite (Permutation_length (proj1 Hs xs)), seq_length in Hik. auto. }
  assert (Hlx : length xs = n).
  { destruct (ci_run E srt r l ns fs n seeds w rows w1 ts 0 Hs Hb Ht Hn) as (out & _ & _ & _ & H).
    apply (H j xs t); auto. }
  assert (Hls : length s = n) by (rewrite (Permutation_length Hps); auto).
  assert (Hne : s <> []) by (intros H; rewrite H in Hls; cbn in Hls; lia).
  exists s, (fun x => interp x (cdf (length s)) s). split; auto. split; auto.
  split; [apply interp_cdf_quantile; auto|]. split; [|split].
  - intros c. destruct (ci_run E srt r l ns fs n seeds w rows w1 ts c Hs Hb Ht Hn) as (out & Ho & Hl & _ & H).
    exists out. split; auto. split; auto. rewrite Hls. apply (H j xs t); auto.
  - intros c c' Hc. assert (H := interp_cdf_mono s Hss (1 - c') (1 - c) ltac:(lra)). lra.
  - intros c lo hi Hx. assert (H := interp_cdf_bounds s lo hi (1 - c) Hne Hss); cbn beta in *.
    destruct H; [|lra]. intros v Hv. apply Hx. apply (Permutation_in _ Hps). auto.
Qed.
Print Assumptions C40_ci_bootstrap.

(** Without replications there is no quantile: ValueError. *)
Theorem C40_no_replications : forall E srt r labs tmm l c ns fs (w : world E) ts,
    consistent r labs tmm -> run_estimators srt r l None = Ok ts -> l <> [] ->
    run_ci_bootstrap srt r l c ns fs 0 [] w = (Raise ValueError, w).
Proof.
  intros E srt r labs tmm l c ns fs w ts Hc Ht Hl.
  assert (Hb : exists rows, run_bootstrap_values srt r l ns fs 0 [] w = (Ok rows, w) /\ length rows = length l).
  { unfold run_bootstrap_values, bootstrap_columns. eexists. split.
    - rewrite (wbind_run _ _ _ _ _ _ [] w); [reflexivity|]. unfold wassert. unfold wbind at 1, wlift at 1. cbn [length Nat.eqb assertb].
      rewrite (wbind_run _ _ _ _ _ _ _ _ (get_run_threads_spec E r labs tmm w Hc)). reflexivity.
    - destruct fs; [rewrite map_length|]; apply rows_of_length. }
  destruct Hb as (rows & Hb & Hrows). unfold run_ci_bootstrap. rewrite (wbind_run _ _ _ _ _ _ _ _ Hb).
  unfold wbind, wlift. rewrite Ht. unfold run_estimators in Ht.
  destruct (get_logw r None) as [lw|]; cbn [rbind] in Ht; [|discriminate].
  apply mapM_Ok, F2_length in Ht. destruct rows as [|row rows]; [destruct l; [congruence|discriminate]|].
  destruct ts as [|t ts]; [destruct l; [congruence|discriminate]|]. reflexivity.
Qed.
Print Assumptions C40_no_replications.

(** ** C65: flip_skew, which is on by default, undoes the reflection of the
    bootstrap distribution made by run_ci_bootstrap. *)
Theorem C65_ci_double_flip : forall E srt r l ns n seeds (w : world E) rows w1 ts,
    sorts srt -> run_bootstrap_values srt r l ns false n seeds w = (Ok rows, w1) ->
    run_estimators srt r l None = Ok ts -> (0 < n)%nat ->
    forall j xs t, nth_error rows j = Some (map Some xs) -> nth_error ts j = Some (Some t) ->
    exists s q, Permutation s xs /\ StronglySorted Rle s /\ quantile_of s q /\
      forall c, exists out out', run_ci_bootstrap srt r l c ns false n seeds w = (Ok out, w1) /\
        nth_error out j = Some (Some (2 * t - q (1 - c))) /\
        run_ci_bootstrap srt r l c ns true n seeds w = (Ok out', w1) /\
        nth_error out' j = Some (Some (2 * t - 2 * mean xs + q c)).
Proof.
  intros E srt r l ns n seeds w rows w1 ts Hs Hb Ht Hn j xs t Hj Htj.
  destruct (C40_ci_bootstrap _ _ _ _ _ _ _ _ _ _ _ _ Hs Hb Ht Hn _ _ _ Hj Htj)
    as (s & q & Hp & Hss & Hq & Hout & _ & _).
  assert (Hlx : length xs = n).
  { destruct (ci_run E srt r l ns false n seeds w rows w1 ts 0 Hs Hb Ht Hn) as (out & _ & _ & _ & H).
    apply (H j xs t); auto. }
  assert (Hne : xs <> []) by (intros H; rewrite H in Hlx; cbn in Hlx; lia).
  exists s, q. split; auto. split; auto. split; auto. intros c.
  destruct (Hout c) as (out & Ho & _ & Hv).
  destruct (C38_flip_skew _ _ _ _ _ _ _ _ _ _ Hb) as (rows' & Hb' & _ & _ & Hfl).
  destruct (Hfl j xs Hne Hj) as (ys & Hys & Hly & Hnth & Hm & _).
  destruct (C40_ci_bootstrap _ _ _ _ _ _ _ _ _ _ _ _ Hs Hb' Ht Hn _ _ _ Hys Htj)
    as (s' & q' & Hp' & Hss' & Hq' & Hout' & _ & _).
  destruct (Hout' c) as (out' & Ho' & _ & Hv').
  exists out, out'. split; auto. split; auto. split; auto. rewrite Hv'. do 2 f_equal.
  set (m := 2 * mean xs).
  assert (Hsne : s <> []).
  { intros H. rewrite H in Hp. apply Permutation_nil in Hp. auto. }
  assert (Hy : ys = map (fun v => m - v) xs).
  { apply nth_ext with 0 0; [rewrite map_length; auto|]. intros i Hi. rewrite Hnth by lia.
    symmetry. apply (map_nth_in _ _ (fun v => m - v)). lia. }
  assert (Hs' : s' = rev (map (fun v => m - v) s)).
  { apply sorted_unique_R; auto.
    - rewrite Hp', Hy, <- Permutation_rev. apply Permutation_map. apply Permutation_sym. auto.
    - clear - Hss. induction Hss as [|a u SS IH FF]; cbn [map rev]; [constructor|].
      rewrite Forall_forall in FF.
      assert (Hg : forall (b : list R) z, StronglySorted Rle b -> (forall v, In v b -> v <= z) -> StronglySorted Rle (b ++ [z])).
      { induction b as [|y b IHb]; intros z Hb Hz; cbn; [repeat constructor|].
        apply StronglySorted_inv in Hb as [S1 F1]. constructor.
        - apply IHb; auto. intros; apply Hz; right; auto.
        - apply Forall_app. split; auto. constructor; auto. apply Hz. left. auto. }
      apply Hg; auto. intros v Hv. rewrite <- in_rev in Hv. apply in_map_iff in Hv as (x & <- & Hx).
      specialize (FF x Hx). lra. }
  assert (Hqq : forall x, q' x = m - q (1 - x)).
  { subst s'. intros x.
    apply (quantile_unique (rev (map (fun v => m - v) s)) q' (fun x => m - q (1 - x))); auto.
    - intros H. apply (f_equal (@length R)) in H. rewrite rev_length, map_length in H. destruct s; [congruence|discriminate].
    - apply quantile_reflect; auto. }
  rewrite Hqq. replace (1 - (1 - c)) with c by lra. unfold m. lra.
Qed.
Print Assumptions C65_ci_double_flip.
Example C40_example : exists rows ts w1,
    run_bootstrap_values r_isort run_bs [CountSamples] false false 2
      [BKeep; BKeep] (@mkW (script_env []) [0; 0; 1; 1]%nat []) = (Ok rows, w1) /\
    nth_error rows 0 = Some (map Some [4; 2]) /\
    run_estimators r_isort run_bs [CountSamples] None = Ok ts /\ nth_error ts 0 = Some (Some (INR 3)).
Proof.
  destruct C38_example as [w1 H]. do 3 eexists. split; [exact H|]. split; [reflexivity|].
  split; reflexivity.
Qed.

(** ** C41, C66 *)

Definition nonneg_unc (u : fl) : Prop := match u with Some x => 0 <= x | None => True end.

Lemma signed_sqrt_spec : forall v s, exists x, no_negative (signed_sqrt (fsub (fsq (Some v)) (fsq (Some s)))) = Some x /\
    0 <= x /\ (s ^ 2 <= v ^ 2 -> x ^ 2 = v ^ 2 - s ^ 2) /\ (v ^ 2 <= s ^ 2 -> x = 0).
Proof.
  intros v s. unfold signed_sqrt, fsub, fsq, lift1, lift2, option_map, no_negative. set (d := v ^ 2 - s ^ 2).
  unfold sign. destruct (Rlt_dec 0 d) as [Hd|Hd]; [|destruct (Rlt_dec d 0) as [Hd'|Hd']].
  - assert (Hs : 0 < sqrt (Rabs d)) by (apply sqrt_lt_R0; rewrite Rabs_pos_eq; lra).
    destruct (Rle_dec (sqrt (Rabs d) * 1) 0); [lra|]. eexists. split; [reflexivity|]. split; [lra|]. split.
    + intros _. rewrite Rmult_1_r, pow2_sqrt, Rabs_pos_eq; auto; [lra|apply Rabs_pos].
    + intros. unfold d in Hd. lra.
  - pose proof (sqrt_pos (Rabs d)). destruct (Rle_dec (sqrt (Rabs d) * -1) 0); [|lra].
    exists 0. split; auto. split; [lra|]. split; [|auto]. intros. unfold d in Hd'. lra.
  - rewrite Rmult_0_r. destruct (Rle_dec 0 0); [|lra]. exists 0. split; auto. split; [lra|]. split; auto.
    intros. unfold d in *. assert (v ^ 2 - s ^ 2 = 0) by lra. rewrite H0. ring.
Qed.

Lemma imp_one_run : forall E (norm : normals E) nsim b v vu s su (w : world E), accepted_seed b -> nonneg_unc vu -> nonneg_unc su ->
    exists u fu, imp_one norm nsim b v vu s su w =
      (Ok (mkImp (no_negative (signed_sqrt (fsub (fsq v) (fsq s)))) u
                 (fdiv (no_negative (signed_sqrt (fsub (fsq v) (fsq s)))) v) fu), w) /\
      (seeded b = true -> forall w' : world E, fst (imp_one norm nsim b v vu s su w') = fst (imp_one norm nsim b v vu s su w)).
Proof.
  intros E norm nsim b v vu s su w Hacc Hv Hs.
  assert (Hn : forall mu sg, nonneg_unc sg -> forall w : world E, normal norm mu sg nsim w =
             (Ok (fst (norm mu sg nsim (w_rng w))), mkW (snd (norm mu sg nsim (w_rng w))) (w_warn w))).
  { intros mu sg Hsg w0. unfold normal. destruct sg as [x|].
    - destruct (Rlt_dec x 0); [cbn in Hsg; lra|]. destruct (norm mu (Some x) nsim (w_rng w0)); auto.
    - destruct (norm mu None nsim (w_rng w0)); auto. }
  assert (Hseed : forall w : world E, exists st, apply_seed b w = (Ok tt, mkW st (w_warn w)) /\
             (seeded b = true -> forall w' : world E, apply_seed b w' = (Ok tt, mkW st (w_warn w')))).
  { intros w0. destruct b; [exists (w_rng w0)|exists (r_seed E z)|exists s0].
    - split; [destruct w0; reflexivity|discriminate].
    - split; [apply seed_run; exact Hacc|intros _ w'; apply seed_run; exact Hacc].
    - split; auto. }
  assert (Hrun : forall (w : world E) st, apply_seed b w = (Ok tt, mkW st (w_warn w)) ->
     imp_one norm nsim b v vu s su w =
     (let '(sv, st1) := norm v vu nsim st in
      let '(ss, st2) := norm s su nsim st1 in
      let istd := no_negative (signed_sqrt (fsub (fsq v) (fsq s))) in
      let si := map2 (fun a c => signed_sqrt (fsub (fsq a) (fsq c))) sv ss in
      (Ok (mkImp istd (np_std si) (fdiv istd v) (np_std (map2 fdiv si sv))), w))).
  { intros w0 st Hst. unfold imp_one. unfold wbind at 1, get_state. rewrite (wbind_run _ _ _ _ _ _ _ _ Hst).
    rewrite (wbind_run _ _ _ _ _ _ _ _ (Hn v vu Hv (mkW st (w_warn w0)))). cbn [w_rng w_warn].
    destruct (norm v vu nsim st) as [sv st1]. cbn [fst snd].
    rewrite (wbind_run _ _ _ _ _ _ _ _ (Hn s su Hs (mkW st1 (w_warn w0)))). cbn [w_rng w_warn].
    destruct (norm s su nsim st1) as [ss st2]. cbn [fst snd]. destruct w0. reflexivity. }
  destruct (Hseed w) as (st & H1 & H2). pose proof (Hrun w st H1) as Hw.
  assert (Hw' : seeded b = true -> forall w' : world E, fst (imp_one norm nsim b v vu s su w') = fst (imp_one norm nsim b v vu s su w)).
  { intros Hb w'. rewrite (Hrun w' st (H2 Hb w')), Hw. destruct (norm v vu nsim st). destruct (norm s su nsim r). reflexivity. }
  rewrite Hw in Hw' |- *. destruct (norm v vu nsim st) as [sv st1]. destruct (norm s su nsim st1) as [ss st2].
  cbn zeta in *. do 2 eexists. split; [reflexivity|auto].
Qed.

(** For standard deviations v (of the results) and s (from the bootstrap). *)
Theorem C41_implementation_std : forall E (norm : normals E) vals vals_u bs bs_u nsim b (w : world E), accepted_seed b ->
    length vals_u = length vals -> length bs = length vals -> length bs_u = length vals ->
    (forall u, In u (vals_u ++ bs_u) -> nonneg_unc u) ->
    exists out, implementation_std norm vals vals_u bs bs_u nsim b w = (Ok out, w) /\
      length out = length vals /\
      (b <> BKeep -> forall w' : world E, fst (implementation_std norm vals vals_u bs bs_u nsim b w') = Ok out) /\
      forall i v s, nth_error vals i = Some (Some v) -> nth_error bs i = Some (Some s) -> 0 <= v -> 0 <= s ->
        exists x u f fu, nth_error out i = Some (mkImp (Some x) u f fu) /\ 0 <= x /\
          (s <= v -> x ^ 2 + s ^ 2 = v ^ 2) /\ (v <= s -> x = 0) /\
          (0 < v -> f = Some (x / v) /\ 0 <= x / v <= 1) /\ (v = 0 -> f = None).
Proof.
  intros E norm vals vals_u bs bs_u nsim b w Hacc L1 L2 L3 Hu.
  unfold implementation_std. rewrite L1, L2, L3, Nat.eqb_refl. cbn [andb].
  set (g := fun p : (option R * option R) * (option R * option R) =>
              let '((v, vu), (s, su)) := p in imp_one (E := E) norm nsim b v vu s su).
  assert (Hlen : length (combine (combine vals vals_u) (combine bs bs_u)) = length vals).
  { rewrite !combine_length. lia. }
  assert (Hin : forall v vu s su, In ((v, vu), (s, su)) (combine (combine vals vals_u) (combine bs bs_u)) ->
             nonneg_unc vu /\ nonneg_unc su).
  { intros v vu s su H. split; apply Hu, in_app_iff.
    - left. apply in_combine_l, in_combine_r in H. auto.
    - right. apply in_combine_r, in_combine_r in H. auto. }
  assert (Hnth : forall i v s, nth_error vals i = Some v -> nth_error bs i = Some s ->
             exists vu su, nth_error (combine (combine vals vals_u) (combine bs bs_u)) i = Some ((v, vu), (s, su))).
  { clear - L1 L2 L3. intros i. revert vals vals_u bs bs_u L1 L2 L3.
    induction i as [|i IH]; intros [|v vals] [|vu vals_u] [|s bs] [|su bs_u] L1 L2 L3 v' s' H1 H2; cbn in *; try discriminate.
    - injection H1 as <-. injection H2 as <-. eauto.
    - apply (IH vals vals_u bs bs_u); auto. }
  revert Hlen Hin Hnth. generalize (combine (combine vals vals_u) (combine bs bs_u)) as ps. intros ps Hlen Hin Hnth.
  assert (Hrun : exists out, wmapM g ps w = (Ok out, w) /\ length out = length ps /\
     (b <> BKeep -> forall w' : world E, fst (wmapM g ps w') = Ok out) /\
     forall i v vu s su, nth_error ps i = Some ((v, vu), (s, su)) ->
       exists u fu, nth_error out i = Some (mkImp (no_negative (signed_sqrt (fsub (fsq v) (fsq s)))) u
                 (fdiv (no_negative (signed_sqrt (fsub (fsq v) (fsq s)))) v) fu)).
  { clear Hlen Hnth. revert Hin. clear - g Hacc. induction ps as [|[[v vu] [s su]] ps IH]; intros Hin.
    - exists []. split; auto. split; auto. split; auto. intros [|i] v vu s su H; discriminate.
    - destruct (Hin v vu s su) as [Hv Hs]; [left; auto|].
      destruct IH as (out & I1 & I2 & I3 & I4); [intros; eapply Hin; right; eauto|].
      destruct (imp_one_run E norm nsim b v vu s su w Hacc Hv Hs) as (u & fu & K1 & K2).
      eexists (_ :: out). cbn [wmapM]. split; [|split; [|split]].
      + rewrite (wbind_run _ _ _ _ _ _ _ _ K1), (wbind_run _ _ _ _ _ _ _ _ I1). reflexivity.
      + cbn. auto.
      + intros Hb w'. assert (Hsd : seeded b = true) by (destruct b; auto; congruence).
        destruct (imp_one_run E norm nsim b v vu s su w' Hacc Hv Hs) as (u' & fu' & K1' & _).
        specialize (K2 Hsd w'). rewrite K1, K1' in K2. cbn [fst] in K2.
        unfold g at 1. rewrite (wbind_run _ _ _ _ _ _ _ _ K1'). unfold wbind.
        specialize (I3 Hb w'). destruct (wmapM g ps w') as [o w2]. cbn [fst] in I3. subst o.
        unfold wret. cbn [fst]. injection K2 as -> ->. reflexivity.
      + intros [|i] v' vu' s' su' H; cbn in H; [|apply (I4 i v' vu' s' su'); auto].
        injection H as <- <- <- <-. cbn. eauto. }
  destruct Hrun as (out & R1 & R2 & R3 & R4). exists out. split; [exact R1|]. split; [lia|]. split; [exact R3|].
  intros i v s Hv Hs Hv0 Hs0. destruct (Hnth i _ _ Hv Hs) as (vu & su & Hp).
  destruct (R4 _ _ _ _ _ Hp) as (u & fu & Ho).
  destruct (signed_sqrt_spec v s) as (x & Hx & Hx0 & Hx1 & Hx2). rewrite Hx in Ho.
  exists x, u, (fdiv (Some x) (Some v)), fu. split; auto. split; auto. split; [|split; [|split]].
  - intros Hsv. rewrite Hx1; [lra|]. apply pow_incr. lra.
  - intros Hvs. apply Hx2. apply pow_incr. lra.
  - intros Hv1. cbn [fdiv]. destruct (Req_EM_T v 0); [lra|]. split; auto.
    assert (Hxv : x <= v).
    { destruct (Rle_dec s v) as [Hsv|Hsv].
      - assert (x ^ 2 <= v ^ 2).
        { rewrite Hx1 by (apply pow_incr; lra). pose proof (pow2_ge_0 s). lra. }
        nra.
      - rewrite Hx2 by (apply pow_incr; lra). lra. }
    assert (Hi : 0 < / v) by (apply Rinv_0_lt_compat; auto). unfold Rdiv. split; [nra|].
    apply Rmult_le_reg_r with v; auto. rewrite Rmult_assoc, Rinv_l by lra. lra.
  - intros ->. cbn [fdiv]. destruct (Req_EM_T 0 0); [auto|lra].
Qed.
Print Assumptions C41_implementation_std.
Example C41_example : forall (norm : normals (script_env [])), exists out,
    implementation_std norm [Some 5] [Some 1] [Some 3] [Some 0] 10 (BInt 0) (@mkW (script_env []) [] []) =
    (Ok out, @mkW (script_env []) [] []) /\ exists u f fu, out = [mkImp (Some 4) u f fu].
Proof.
  intros norm. destruct (C41_implementation_std (script_env []) norm [Some 5] [Some 1] [Some 3] [Some 0] 10 (BInt 0)
    (@mkW (script_env []) [] [])) as (out & H1 & H2 & _ & H3); auto; [cbn; lia|..].
  { intros u [<-|[<-|[]]]; cbn; lra. }
  exists out. split; auto. destruct (H3 0%nat 5 3) as (x & u & f & fu & K1 & K2 & K3 & _); auto; try lra.
  destruct out as [|o [|o' t]]; try discriminate. cbn in K1. injection K1 as ->. exists u, f, fu.
  assert (x = 4) as -> by (specialize (K3 ltac:(lra)); nra). auto.
Qed.

(** C66: a negative uncertainty is a ValueError, and the generator is left
    seeded: [s0] is the state after seeding with [b], and [i] the first position
    with a negative uncertainty. *)
Theorem C66_state_after_error : forall E (norm : normals E) vals vals_u bs bs_u nsim b s0 i v vu s su (w : world E),
    length vals_u = length vals -> length bs = length vals -> length bs_u = length vals ->
    (exists z, b = BInt z /\ s0 = r_seed E z /\ (0 <= z < 4294967296)%Z) \/ b = BFresh s0 ->
    (forall u, In u (firstn i vals_u ++ firstn i bs_u) -> nonneg_unc u) ->
    nth_error vals i = Some v -> nth_error vals_u i = Some vu ->
    nth_error bs i = Some s -> nth_error bs_u i = Some su ->
    (~ nonneg_unc vu -> implementation_std norm vals vals_u bs bs_u nsim b w =
                        (Raise ValueError, mkW s0 (w_warn w))) /\
    (nonneg_unc vu -> ~ nonneg_unc su -> implementation_std norm vals vals_u bs bs_u nsim b w =
                        (Raise ValueError, mkW (snd (norm v vu nsim s0)) (w_warn w))).
Proof.
  intros E norm vals vals_u bs bs_u nsim b s0 i v vu s su w L1 L2 L3 Hb Hin V VU S SU.
  unfold implementation_std. rewrite L1, L2, L3, Nat.eqb_refl. cbn [andb].
  assert (Hseed : forall w : world E, apply_seed b w = (Ok tt, mkW s0 (w_warn w))).
  { destruct Hb as [(z & -> & -> & Hz)| ->]; auto. intros w0. apply seed_run. auto. }
  assert (Hacc : accepted_seed b) by (destruct Hb as [(z & -> & _ & Hz)| ->]; [exact Hz|exact I]).
  assert (Hneg : forall u : option R, ~ nonneg_unc u -> exists x, u = Some x /\ x < 0).
  { intros [x|] H; [|exfalso; apply H; exact I]. exists x. cbn in H. split; auto. lra. }
  assert (Hpos : forall u mu (w : world E), nonneg_unc u -> normal norm mu u nsim w =
            (Ok (fst (norm mu u nsim (w_rng w))), mkW (snd (norm mu u nsim (w_rng w))) (w_warn w))).
  { intros u mu w1 H. unfold normal. destruct u as [x|]; [destruct (Rlt_dec x 0); [cbn in H; lra|]|];
      destruct (norm mu _ nsim (w_rng w1)); auto. }
  revert vals vals_u bs bs_u w L1 L2 L3 Hin V VU S SU.
  induction i as [|i IH]; intros vals vals_u bs bs_u w L1 L2 L3 Hin V VU S SU;
    destruct vals as [|a vals], vals_u as [|au vals_u], bs as [|c bs], bs_u as [|cu bs_u]; try discriminate.
  - cbn in V, VU, S, SU. inversion V; inversion VU; inversion S; inversion SU; subst.
    cbn [combine wmapM]. unfold imp_one, wbind, get_state. rewrite Hseed. split.
    + intros H. destruct (Hneg _ H) as (x & -> & Hx). unfold normal at 1. destruct (Rlt_dec x 0); [reflexivity|lra].
    + intros H1 H2. rewrite (Hpos vu) by auto. destruct (Hneg _ H2) as (x & -> & Hx). unfold normal at 1.
      destruct (Rlt_dec x 0); [reflexivity|lra].
  - cbn [combine wmapM].
    destruct (imp_one_run E norm nsim b a au c cu w Hacc) as (u & fu & H & _).
    { apply Hin. left. auto. }
    { apply Hin. cbn [firstn]. apply in_app_iff. right. left. auto. }
    cbn in L1, L2, L3.
    destruct (IH vals vals_u bs bs_u w) as [I1 I2]; try congruence; auto.
    { intros x Hx. apply Hin. apply in_app_iff in Hx. apply in_app_iff.
      destruct Hx; [left|right]; right; auto. }
    split; intros; erewrite wbind_run by exact H; erewrite wbind_raise; try reflexivity; auto.
Qed.
Print Assumptions C66_state_after_error.
(** A seed which np.random.seed does not accept: ValueError, whatever the
    uncertainties, and nothing is changed. *)
Theorem C66_bad_seed : forall E (norm : normals E) vals vals_u bs bs_u nsim b (w : world E), ~ accepted_seed b ->
    length vals_u = length vals -> length bs = length vals -> length bs_u = length vals -> vals <> [] ->
    implementation_std norm vals vals_u bs bs_u nsim b w = (Raise ValueError, w).
Proof.
  intros E norm vals vals_u bs bs_u nsim b w Hb L1 L2 L3 Hne.
  unfold implementation_std. rewrite L1, L2, L3, Nat.eqb_refl. cbn [andb].
  destruct vals as [|a vals], vals_u as [|au vals_u], bs as [|c bs], bs_u as [|cu bs_u]; try discriminate; [congruence|].
  cbn [combine wmapM]. unfold wbind at 1. unfold imp_one. unfold wbind at 1, get_state. unfold wbind at 1.
  rewrite apply_seed_bad by auto. reflexivity.
Qed.
Print Assumptions C66_bad_seed.
Example C66_example : forall (norm : normals (script_env [])),
    implementation_std norm [Some 5; Some 2] [Some 1; Some 1] [Some 3; Some 1] [Some 0; Some (-1)] 10 (BInt 0)
      (@mkW (script_env []) [7]%nat []) =
    (Raise ValueError, @mkW (script_env []) (snd (norm (Some 2) (Some 1) 10%nat [])) []).
Proof.
  intros norm.
  destruct (C66_state_after_error (script_env []) norm [Some 5; Some 2] [Some 1; Some 1] [Some 3; Some 1]
              [Some 0; Some (-1)] 10 (BInt 0) [] 1 (Some 2) (Some 1) (Some 1) (Some (-1)) (@mkW (script_env []) [7]%nat []))
    as [_ H]; auto.
  { left. exists 0%Z. split; [auto|]. split; [auto|lia]. }
  { cbn. intros u [<-|[<-|[]]]; cbn; lra. }
  apply H; cbn; lra.
Qed.
