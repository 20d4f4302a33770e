(** C108: expected prior volumes. *)
From Verif Require Import Base ModelRun ModelReal SpecReal ProofReal PropWeights PropShrink.
From Coq Require Import Lra.
Local Open Scope R_scope.

Fixpoint prodR (l : list R) : R := match l with [] => 1 | x :: t => x * prodR t end.

Lemma exp_mono : forall a b, a <= b -> exp a <= exp b.
Proof. intros a b [H| ->]; [left; apply exp_increasing; auto|lra]. Qed.

(** The primitive of [x ^ c]. *)
Definition Fc (c x : R) : R := exp ((1 + c) * ln x) / (1 + c).
Lemma Fc_der : forall c x, 0 < c -> 0 < x -> derivable_pt_lim (Fc c) x (exp (c * ln x)).
Proof.
  intros c x Hc Hx. unfold Fc, Rdiv.
  replace (exp (c * ln x)) with (exp ((1 + c) * ln x) * ((1 + c) * / x) * / (1 + c)).
  2:{ replace ((1 + c) * ln x) with (ln x + c * ln x) by ring. rewrite exp_plus, exp_ln by auto. field. lra. }
  assert (D : derivable_pt_lim (fun x => exp ((1 + c) * ln x)) x (exp ((1 + c) * ln x) * ((1 + c) * / x))).
  { apply (derivable_pt_lim_comp (fun x => (1 + c) * ln x) exp); [|apply derivable_pt_lim_exp].
    apply (derivable_pt_lim_scal ln). apply derivable_pt_lim_ln; auto. }
  replace (exp ((1 + c) * ln x) * ((1 + c) * / x) * / (1 + c)) with (/ (1 + c) * (exp ((1 + c) * ln x) * ((1 + c) * / x))) by ring.
  apply (derivable_pt_lim_ext (fun x => / (1 + c) * exp ((1 + c) * ln x))); [intros; ring|].
  apply (derivable_pt_lim_scal (fun x => exp ((1 + c) * ln x))). auto.
Qed.
Lemma Fc_step : forall c a b, 0 < c -> 0 < a < b ->
    exp (c * ln a) * (b - a) <= Fc c b - Fc c a <= exp (c * ln b) * (b - a).
Proof.
  intros c a b Hc H. destruct (MVT_cor2 (Fc c) (fun x => exp (c * ln x)) a b) as (z & Hz & Hi); [lra|intros; apply Fc_der; lra|].
  cbn beta in Hz. rewrite Hz. pose proof (ln_mono a z ltac:(lra) ltac:(lra)). pose proof (ln_mono z b ltac:(lra) ltac:(lra)).
  split; apply Rmult_le_compat_r; try lra; apply exp_mono; nra.
Qed.
(** The mean of [u ^ c] over the grid. *)
Lemma moment_c : forall N c, (0 < N)%nat -> 0 < c ->
    / (1 + c) <= mu (grid N) (fun u => exp (c * ln u)) <= / (1 + c) + / INR N.
Proof.
  intros N c HN Hc. destruct N as [|n]; [lia|]. unfold mu. rewrite grid_length. set (N := INR (S n)).
  assert (HN0 : 1 <= N) by (unfold N; apply (le_INR 1); lia).
  assert (Hi : 0 < / N) by (apply Rinv_0_lt_compat; lra).
  set (f := fun u => exp (c * ln u)).
  assert (Hstep : forall k, (1 <= k < S n)%nat -> 0 < INR k / N < INR (S k) / N /\ INR (S k) / N - INR k / N = / N).
  { intros k Hk. pose proof (grid_point (S n) k ltac:(lia)). fold N in H.
    assert (E : INR (S k) / N - INR k / N = / N) by (rewrite S_INR; field; lra). lra. }
  assert (F1 : INR (S n) / N = 1) by (unfold N; field; unfold N in HN0; lra).
  assert (Gone : Fc c 1 = / (1 + c)) by (unfold Fc; rewrite ln_1, Rmult_0_r, exp_0; field; lra).
  assert (Ffirst : 0 <= Fc c (1 / N) <= f (1 / N) * / N).
  { assert (Hp : 0 < 1 / N) by (unfold Rdiv; lra). unfold Fc, f.
    replace ((1 + c) * ln (1 / N)) with (ln (1 / N) + c * ln (1 / N)) by ring. rewrite exp_plus, exp_ln by auto.
    pose proof (exp_pos (c * ln (1 / N))). assert (0 < / (1 + c) <= 1).
    { split; [apply Rinv_0_lt_compat; lra|]. rewrite <- Rinv_1. apply Rinv_le_contravar; lra. }
    unfold Rdiv in *. assert (0 < 1 * / N * exp (c * ln (1 * / N))) by (apply Rmult_lt_0_compat; lra). split; nra. }
  assert (up : forall l, sumR (map (fun k => f (INR k / N) * / N) l) = sumR (map (fun k => f (INR k / N)) l) / N).
  { intros l. unfold Rdiv at 2. rewrite (Rmult_comm _ (/ N)), <- sumR_mult. f_equal. apply map_ext. intros; lra. }
  assert (S1 : sumR (map f (grid (S n))) = f (1 / N) + sumR (map (fun k => f (INR k / N)) (seq 2 n))).
  { unfold grid. fold N. rewrite map_map. cbn [seq map sumR]. reflexivity. }
  assert (S2 : sumR (map f (grid (S n))) = sumR (map (fun k => f (INR k / N)) (seq 1 n)) + 1).
  { unfold grid. fold N. rewrite map_map, seq_S, map_app, sumR_app'. cbn [map sumR].
    replace (1 + n)%nat with (S n) by lia. rewrite F1. unfold f at 2. rewrite ln_1, Rmult_0_r, exp_0. lra. }
  assert (T1 : Fc c 1 - Fc c (1 / N) <= sumR (map (fun k => f (INR k / N)) (seq 2 n)) / N).
  { rewrite <- up. rewrite <- F1 at 1.
    assert (T := telescope (fun x => - Fc c (x / N)) (fun x => - (f (x / N) * / N)) n). cbn beta in T.
    assert (T' : sumR (map (fun k => f (INR k / N) * / N) (seq 2 n)) = - sumR (map (fun k => - (f (INR k / N) * / N)) (seq 2 n))).
    { rewrite <- (Ropp_involutive (sumR (map _ _))). f_equal. rewrite <- (Rmult_1_l (sumR _)), Ropp_mult_distr_l, <- sumR_mult. f_equal. apply map_ext. intros; lra. }
    rewrite T'. enough (sumR (map (fun k => - (f (INR k / N) * / N)) (seq 2 n)) <= - Fc c (INR (S n) / N) - - Fc c (1 / N)) by lra.
    apply T. intros k Hk. destruct (Hstep k Hk) as (H1 & H3). pose proof (Fc_step c _ _ Hc H1). rewrite H3 in H. fold (f (INR (S k) / N)) in H. lra. }
  assert (T2 : sumR (map (fun k => f (INR k / N)) (seq 1 n)) / N <= Fc c 1 - Fc c (1 / N)).
  { rewrite <- up. rewrite <- F1 at 1.
    assert (T := telescope_low (fun x => - Fc c (x / N)) (fun x => - (f (x / N) * / N)) n). cbn beta in T.
    assert (T' : sumR (map (fun k => f (INR k / N) * / N) (seq 1 n)) = - sumR (map (fun k => - (f (INR k / N) * / N)) (seq 1 n))).
    { rewrite <- (Ropp_involutive (sumR (map _ _))). f_equal. rewrite <- (Rmult_1_l (sumR _)), Ropp_mult_distr_l, <- sumR_mult. f_equal. apply map_ext. intros; lra. }
    rewrite T'. enough (- Fc c (INR (S n) / N) - - Fc c (1 / N) <= sumR (map (fun k => - (f (INR k / N) * / N)) (seq 1 n))) by lra.
    apply T. intros k Hk. destruct (Hstep k Hk) as (H1 & H3). pose proof (Fc_step c _ _ Hc H1). rewrite H3 in H. fold (f (INR k / N)) in H. lra. }
  split.
  - rewrite S1. unfold Rdiv in *. rewrite Rmult_plus_distr_r. lra.
  - rewrite S2. unfold Rdiv in *. rewrite Rmult_plus_distr_r. lra.
Qed.
Lemma ex_prod : forall g a m, g <> [] -> (length a <= m)%nat ->
    ex g m (fun us => exp (dot a us)) = prodR (map (fun c => mu g (fun u => exp (c * ln u))) a).
Proof.
  intros g a m Hg. revert m. assert (Hl : 0 < INR (length g)) by (apply lt_0_INR; destruct g; [congruence|cbn; lia]).
  induction a as [|x a IH]; intros m Hm.
  - rewrite (ex_ext _ _ _ (fun v => 0 * 0 + 0 * 0 + 1)) by (intros; cbn; rewrite exp_0; lra).
    rewrite (ex_lin g m 0 0 1 (fun _ => 0) (fun _ => 0)) by auto. cbn. lra.
  - destruct m as [|m]; [cbn in Hm; lia|]. cbn [ex dot map prodR].
    rewrite (mu_ext _ _ (fun u => prodR (map (fun c => mu g (fun u => exp (c * ln u))) a) * exp (x * ln u))).
    + unfold mu at 1 3. rewrite sumR_mult. unfold Rdiv. ring.
    + intros u. rewrite (ex_ext _ _ _ (fun v => exp (x * ln u) * exp (dot a v) + 0 * 0 + 0)) by (intros; rewrite exp_plus; ring).
      rewrite (ex_lin g m (exp (x * ln u)) 0 0 (fun v => exp (dot a v)) (fun _ => 0)) by auto. rewrite IH by (cbn in Hm; lia). ring.
Qed.
Lemma prod_bounds : forall A (lo f hi : A -> R) l, (forall x, In x l -> 0 <= lo x <= f x /\ f x <= hi x) ->
    0 <= prodR (map lo l) <= prodR (map f l) /\ prodR (map f l) <= prodR (map hi l).
Proof.
  intros A lo f hi l. induction l as [|x l IH]; intros H; cbn [map prodR]; [lra|].
  pose proof (H x (or_introl eq_refl)) as Hx. pose proof (IH (fun y Hy => H y (or_intror Hy))) as Hl.
  split; [split|].
  - apply Rmult_le_pos; lra.
  - apply Rmult_le_compat; lra.
  - apply Rmult_le_compat; lra.
Qed.
Lemma prod_scale : forall A (f : A -> R) c l, prodR (map (fun x => f x * c) l) = prodR (map f l) * c ^ length l.
Proof. induction l as [|x l IH]; cbn [map prodR length pow]; [lra|]. rewrite IH. ring. Qed.
Lemma prod_exp : forall A (f : A -> R) l, prodR (map (fun x => exp (f x)) l) = exp (sumR (map f l)).
Proof. induction l as [|x l IH]; cbn [map prodR sumR]; [rewrite exp_0; auto|]. rewrite IH, exp_plus. auto. Qed.
(** [exp (- x) <= 1 / (1 + x) <= exp (- x + x ^ 2 / 2)] *)
Lemma ln_upper : forall x, 0 <= x -> ln (1 + x) <= x.
Proof.
  intros x [Hx| <-]; [|rewrite Rplus_0_r, ln_1; lra]. rewrite <- (ln_exp x) at 2. apply ln_mono; [lra|].
  pose proof (exp_ineq1 x ltac:(lra)). lra.
Qed.
Lemma ln_lower : forall x, 0 <= x -> x - x ^ 2 / 2 <= ln (1 + x).
Proof.
  intros x [Hx| <-]; [|rewrite Rplus_0_r, ln_1; lra].
  destruct (MVT_cor2 (fun t => ln (1 + t) - (t - t ^ 2 / 2)) (fun t => / (1 + t) - (1 - t)) 0 x Hx) as (z & Hz & Hi).
  - intros t Ht. apply (derivable_pt_lim_minus (fun t => ln (1 + t)) (fun t => t - t ^ 2 / 2)).
    + replace (/ (1 + t)) with (/ (1 + t) * (0 + 1)) by ring.
      apply (derivable_pt_lim_comp (fun t => 1 + t) ln); [|apply derivable_pt_lim_ln; lra].
      apply (derivable_pt_lim_plus (fun _ => 1) (fun t => t)); [apply derivable_pt_lim_const|apply derivable_pt_lim_id].
    + replace (1 - t) with (1 - / 2 * (INR 2 * t ^ 1)) by (cbn; field).
      apply (derivable_pt_lim_minus (fun t => t) (fun t => t ^ 2 / 2)); [apply derivable_pt_lim_id|].
      apply (derivable_pt_lim_ext (fun t => / 2 * t ^ 2)); [intros; field|].
      apply (derivable_pt_lim_scal (fun t => t ^ 2)). apply (derivable_pt_lim_pow t 2).
  - cbn beta in Hz. rewrite Rplus_0_r, ln_1 in Hz.
    assert (0 <= / (1 + z) - (1 - z)).
    { replace (/ (1 + z) - (1 - z)) with (z ^ 2 * / (1 + z)) by (field; lra).
      apply Rmult_le_pos; [apply pow2_ge_0|]. left. apply Rinv_0_lt_compat. lra. }
    assert (0 <= (/ (1 + z) - (1 - z)) * (x - 0)) by (apply Rmult_le_pos; lra). lra.
Qed.
Lemma factor_bounds : forall x, 0 < x -> exp (- x) <= / (1 + x) <= exp (- x + x ^ 2 / 2).
Proof.
  intros x Hx. assert (E : / (1 + x) = exp (- ln (1 + x))) by (rewrite exp_Ropp, exp_ln by lra; auto).
  rewrite E. pose proof (ln_upper x ltac:(lra)). pose proof (ln_lower x ltac:(lra)). split; apply exp_mono; lra.
Qed.

Lemma factor_strict : forall x, 0 < x -> exp (- x) < / (1 + x).
Proof.
  intros x Hx. rewrite exp_Ropp. apply Rinv_lt_contravar; [apply Rmult_lt_0_compat; [lra|apply exp_pos]|].
  apply exp_ineq1. lra.
Qed.
Lemma prod_strict : forall A (f h : A -> R) l, l <> [] -> (forall x, In x l -> 0 < f x < h x) ->
    0 < prodR (map f l) < prodR (map h l).
Proof.
  intros A f h l. induction l as [|x l IH]; intros Hn H; [congruence|]. cbn [map prodR].
  pose proof (H x (or_introl eq_refl)) as Hx. destruct l as [|y l]; [cbn [map prodR]; lra|].
  specialize (IH ltac:(discriminate) (fun y Hy => H y (or_intror Hy))).
  split; [apply Rmult_lt_0_compat; lra|]. apply Rmult_le_0_lt_compat; lra.
Qed.

(** [all] as in C91.  The mean of the simulated volumes of a sample is the
    product of [n / (n + 1)], with a relative error which vanishes for large N.
    The volume without simulation, the exponential of the expected
    log-volume, is below this product, and at least the product times
    [exp (- sum 1 / (2 n ^ 2))]. *)
Theorem C108_expected_volume : forall nlive N all, (0 < N)%nat -> nlive <> [] ->
    (forall n, In n nlive -> (0 < n)%Z) -> NoDup all ->
    (forall us, In us all <-> length us = length nlive /\
                              forall u, In u us -> exists k, (1 <= k <= N)%nat /\ u = INR k / INR N) ->
    exists logx sims, get_logx nlive None = Ok logx /\
      Forall2 (fun us lx => get_logx nlive (Some us) = Ok lx) all sims /\
      forall i, (i < length nlive)%nat ->
        let first := map IZR (firstn (S i) nlive) in
        let expected := prodR (map (fun n => n / (n + 1)) first) in
        expected <= mean (map (fun lx => exp (nth i lx 0)) sims) <= expected * (1 + 2 / INR N) ^ (S i) /\
        exp (nth i logx 0) < expected <= exp (nth i logx 0) * exp (sumR (map (fun n => / (2 * n ^ 2)) first)).
Proof.
  intros nlive N all HN Hne Hpos Hnd Hall. exists (cumsum (logx_steps nlive None)), (map (fun us => cumsum (logx_steps nlive (Some us))) all).
  split; [apply get_logx_run; auto|]. split.
  { clear - Hne Hpos. induction all as [|us all IH]; cbn [map]; constructor; auto. apply get_logx_run; auto. }
  set (g := grid N). set (m := length nlive).
  assert (Hg : g <> []) by (intros H0; apply (f_equal (@length R)) in H0; unfold g in H0; rewrite grid_length in H0; cbn in H0; lia).
  assert (Hp : Permutation all (all_lists g m)).
  { apply NoDup_Permutation; auto; [apply all_lists_NoDup, grid_NoDup; auto|]. intros us. rewrite Hall, in_all_lists. fold m.
    split; intros (A & B); split; auto; intros u Hu.
    - destruct (B u Hu) as (k & Hk & ->). unfold g, grid. apply (in_map (fun k => INR k / INR N)), in_seq. lia.
    - apply B in Hu. unfold g, grid in Hu. apply in_map_iff in Hu as (k & <- & Hk). apply in_seq in Hk. exists k. split; auto. lia. }
  intros i Hi first expected. set (ns := firstn (S i) nlive) in *. set (a := map (fun n => / IZR n) ns).
  assert (Hns : length ns = S i) by (unfold ns; rewrite firstn_length; unfold m in Hi; lia).
  assert (Hpn : forall n, In n ns -> 1 <= IZR n).
  { intros n Hn. apply IZR_le. assert (In n nlive) by (rewrite <- (firstn_skipn (S i) nlive); apply in_or_app; auto). specialize (Hpos n H). lia. }
  assert (Ha : (length a <= m)%nat) by (unfold a; rewrite map_length, Hns; unfold m; lia).
  assert (Hm : mean (map (fun lx => exp (nth i lx 0)) (map (fun us => cumsum (logx_steps nlive (Some us))) all)) =
               prodR (map (fun n => mu g (fun u => exp (/ IZR n * ln u))) ns)).
  { rewrite <- (map_map (fun n => / IZR n) (fun c => mu g (fun u => exp (c * ln u)))). fold a.
    rewrite <- (ex_prod g a m Hg Ha), <- ex_sum by auto. rewrite map_map.
    transitivity (mean (map (fun us => exp (dot a us)) all)).
    - f_equal. apply map_ext_in. intros us Hu. apply Hall in Hu as (Hu & _). f_equal. unfold a. cbn [logx_steps].
      apply cumsum_dot; auto.
    - unfold mean. rewrite !map_length, (Permutation_length Hp). f_equal. apply sumR_perm', Permutation_map, Hp. }
  rewrite Hm. assert (E3 : nth i (cumsum (logx_steps nlive None)) 0 = - sumR a) by (cbn [logx_steps]; apply cumsum_expected; auto).
  rewrite E3. assert (Ee : expected = prodR (map (fun n => / (1 + / IZR n)) ns)).
  { unfold expected, first. rewrite map_map. f_equal. apply map_ext_in. intros n Hn. specialize (Hpn n Hn). field. lra. }
  rewrite Ee. assert (HNr : 0 < / INR N) by (apply Rinv_0_lt_compat, lt_0_INR; auto).
  assert (Hh : forall n, In n ns -> 0 < / IZR n <= 1 /\ / 2 <= / (1 + / IZR n)).
  { intros n Hn. specialize (Hpn n Hn). assert (0 < / IZR n) by (apply Rinv_0_lt_compat; lra).
    assert (/ IZR n <= 1) by (rewrite <- Rinv_1; apply Rinv_le_contravar; lra).
    split; [lra|]. apply Rinv_le_contravar; lra. }
  split.
  - rewrite <- Hns, <- prod_scale.
    destruct (prod_bounds Z (fun n => / (1 + / IZR n)) (fun n => mu g (fun u => exp (/ IZR n * ln u)))
                          (fun n => / (1 + / IZR n) * (1 + 2 / INR N)) ns) as ((_ & B1) & B2); [|split; auto].
    intros n Hn. destruct (Hh n Hn) as (H1 & H2). destruct (moment_c N (/ IZR n) HN ltac:(lra)) as (M1 & M2). fold g in M1, M2.
    split; [lra|]. unfold Rdiv. nra.
  - destruct (prod_bounds Z (fun n => exp (- / IZR n)) (fun n => / (1 + / IZR n))
                          (fun n => exp (- / IZR n + (/ IZR n) ^ 2 / 2)) ns) as ((_ & B1) & B2).
    { intros n Hn. destruct (Hh n Hn) as (H1 & H2). destruct (factor_bounds (/ IZR n) ltac:(lra)) as (M1 & M2).
      pose proof (exp_pos (- / IZR n)). lra. }
    rewrite !prod_exp in *. assert (Eo : forall f : Z -> R, sumR (map (fun n => - f n) ns) = - sumR (map f ns)).
    { intros f. rewrite (map_ext _ (fun n => -1 * f n)) by (intros; ring). rewrite sumR_mult. ring. }
    rewrite Eo in B1. fold a in B1. split.
    { unfold a. rewrite <- (Eo (fun n => / IZR n)), <- (prod_exp _ (fun n => - / IZR n)).
      apply prod_strict; [destruct ns; [discriminate|discriminate]|]. intros n Hn. destruct (Hh n Hn) as (H1 & _).
      split; [apply exp_pos|apply factor_strict; lra]. }
    rewrite <- exp_plus. eapply Rle_trans; [exact B2|]. apply exp_mono.
    rewrite sumR_plus, Eo. fold a. unfold first. rewrite map_map. apply Req_le. f_equal. f_equal. apply map_ext_in.
    intros n Hn. specialize (Hpn n Hn). field. lra.
Qed.
Print Assumptions C108_expected_volume.

(** Two samples, with 2 live points and 1: the expected volumes are 2/3 and 1/3,
    without simulation they are exp (-1/2) and exp (-3/2).  For the hypotheses on
    the lists of draws see C91_example. *)
Example C108_example : (forall n, In n [2; 1]%Z -> (0 < n)%Z) /\
    prodR (map (fun n => n / (n + 1)) (map IZR (firstn 1 [2; 1]%Z))) = 2 / 3 /\
    prodR (map (fun n => n / (n + 1)) (map IZR (firstn 2 [2; 1]%Z))) = 1 / 3 /\
    sumR (map (fun n => / (2 * n ^ 2)) (map IZR (firstn 2 [2; 1]%Z))) = 5 / 8.
Proof.
  split; [intros n [<-|[<-|[]]]; lia|]. cbn. split; [|split]; field.
Qed.

(** ** Evidences *)
(** The likelihoods [L 0 .. L (n-1)] integrated over the prior volume by the
    trapezium rule: every increase of the likelihood times the mean of the
    volumes of the two samples. *)
Definition layers (n : nat) (L X : nat -> R) : R :=
  L 0%nat + sumR (map (fun i => (L (S i) - L i) * ((X i + X (S i)) / 2)) (seq 0 (n - 1))).
Lemma sumR_le : forall A (f h : A -> R) l, (forall x, In x l -> f x <= h x) -> sumR (map f l) <= sumR (map h l).
Proof.
  intros A f h l. induction l as [|x l IH]; intros H; cbn [map sumR]; [lra|].
  pose proof (H x (or_introl eq_refl)). specialize (IH (fun y Hy => H y (or_intror Hy))). lra.
Qed.
Lemma layers_mono : forall n L X Y, (forall i, (S i < n)%nat -> L i <= L (S i)) -> (forall i, (i < n)%nat -> X i <= Y i) ->
    layers n L X <= layers n L Y.
Proof.
  intros n L X Y HL HX. unfold layers. apply Rplus_le_compat_l. apply sumR_le. intros i Hi. apply in_seq in Hi.
  pose proof (HL i ltac:(lia)). pose proof (HX i ltac:(lia)). pose proof (HX (S i) ltac:(lia)). apply Rmult_le_compat_l; lra.
Qed.
Lemma layers_scale : forall n L X c, layers n L (fun i => X i * c) = L 0%nat * (1 - c) + layers n L X * c.
Proof.
  intros n L X c. unfold layers.
  assert (E : sumR (map (fun i => (L (S i) - L i) * ((X i * c + X (S i) * c) / 2)) (seq 0 (n - 1))) =
              c * sumR (map (fun i => (L (S i) - L i) * ((X i + X (S i)) / 2)) (seq 0 (n - 1)))).
  { rewrite <- sumR_mult. f_equal. apply map_ext. intros; lra. }
  rewrite E. ring.
Qed.
(** The evidence is this integral. *)
Lemma evidence_layers : forall r sim, draws_ok sim (length (nlive_array r)) -> logl r <> [] ->
    length (nlive_array r) = length (logl r) -> (forall n, In n (nlive_array r) -> (0 < n)%Z) ->
    let logx := cumsum (logx_steps (nlive_array r) sim) in
    evidence r None sim =
    Ok (Some (layers (length (logl r)) (fun i => exp (fval (nth i (logl r) 0%Z))) (fun i => exp (nth i logx 0)))).
Proof.
  intros r sim Hd Hne Hl Hp logx.
  assert (Hnn : nlive_array r <> []) by (intros E; rewrite E in Hl; destruct (logl r); [congruence|discriminate]).
  assert (Hx : get_logx (nlive_array r) sim = Ok logx) by (apply get_logx_run; auto).
  destruct (C30_weights_partition_prior r sim Hd Hne Hl Hp) as (logw & Hw & Hlw & _).
  destruct (C31_trapezium_rule r sim logx logw Hd Hx Hw) as (_ & H1 & H2).
  unfold evidence, logw_of. rewrite Hw. cbn [rbind]. do 2 f_equal. unfold lse. rewrite rsum_sumR.
  set (n := length (logl r)) in *. set (L := fun i => exp (fval (nth i (logl r) 0%Z))) in *.
  set (X := fun i => exp (nth i logx 0)) in *.
  assert (En : map exp logw = map (fun i => exp (nth i logw 0)) (seq 0 n)).
  { rewrite <- Hlw. clear. rewrite <- (map_map (fun i => nth i logw 0) exp). f_equal.
    induction logw as [|x l IH]; auto. cbn [length seq map nth]. f_equal. rewrite <- seq_shift, map_map. auto. }
  rewrite En. assert (Hn0 : (0 < n)%nat) by (unfold n; destruct (logl r); [congruence|cbn; lia]).
  enough (E : sumR (map (fun i => exp (nth i logw 0)) (seq 0 n)) = layers n L X).
  { rewrite exp_ln; auto. rewrite <- En. destruct logw as [|x l]; [cbn in Hlw; lia|]. cbn [map sumR].
    assert (0 <= sumR (map exp l)).
    { clear. induction l as [|y l IH]; cbn; [lra|]. pose proof (exp_pos y). lra. }
    pose proof (exp_pos x). lra. }
  destruct (Nat.eq_dec n 1) as [E1|E1].
  - rewrite E1. cbn [seq map sumR]. rewrite (H1 E1). unfold layers. cbn [Nat.sub seq map sumR]. reflexivity.
  - destruct (H2 ltac:(lia)) as (F & G & K).
    change (exp (nth 0 logw 0) = L 0%nat * (1 - (X 0%nat + X 1%nat) / 2)) in F.
    change (exp (nth (n - 1) logw 0) = L (n - 1)%nat * ((X (n - 2)%nat + X (n - 1)%nat) / 2)) in G.
    change (forall i, (0 < i < n - 1)%nat -> exp (nth i logw 0) = L i * ((X (i - 1)%nat - X (i + 1)%nat) / 2)) in K.
    assert (P : forall k, (k < n - 1)%nat ->
        sumR (map (fun i => exp (nth i logw 0)) (seq 0 (S k))) =
        L 0%nat + sumR (map (fun i => (L (S i) - L i) * ((X i + X (S i)) / 2)) (seq 0 k)) - L k * ((X k + X (S k)) / 2)).
    { induction k as [|k IH]; intros Hk.
      - cbn [seq map sumR]. rewrite F. lra.
      - rewrite seq_S, map_app, sumR_app', IH by lia. rewrite (seq_S k 0), map_app, sumR_app'. cbn [Nat.add map sumR].
        rewrite (K (S k)) by lia. replace (S k - 1)%nat with k by lia. replace (S k + 1)%nat with (S (S k)) by lia. lra. }
    replace n with (S (n - 1))%nat at 1 by lia. rewrite seq_S, map_app, sumR_app'. cbn [Nat.add map sumR].
    rewrite G. replace (seq 0 (n - 1)) with (seq 0 (S (n - 2))) by (f_equal; lia). rewrite P by lia.
    unfold layers. replace (n - 1)%nat with (S (n - 2)) by lia. rewrite (seq_S (n - 2) 0), map_app, sumR_app'. cbn [Nat.add map sumR].
    lra.
Qed.

(** Numbers strictly between 0 and 1. *)
Definition inner (N : nat) : list R := map (fun k => INR k / INR N) (seq 1 (N - 1)).
Lemma inner_length : forall N, length (inner N) = (N - 1)%nat.
Proof. intros. unfold inner. rewrite map_length, seq_length. auto. Qed.
Lemma inner_NoDup : forall N, (0 < N)%nat -> NoDup (inner N).
Proof.
  intros N HN. unfold inner. apply NoDup_map_r; [|apply seq_NoDup]. intros x y _ _ H.
  assert (0 < INR N) by (apply lt_0_INR; lia). apply INR_eq. apply (Rmult_eq_reg_r (/ INR N)); auto.
  apply Rinv_neq_0_compat. lra.
Qed.
Lemma moment_inner : forall N c, (2 <= N)%nat -> 0 < c <= 1 ->
    / (1 + c) * (1 - / INR (N - 1)) <= mu (inner N) (fun u => exp (c * ln u)) <= / (1 + c) * (1 + / INR (N - 1)).
Proof.
  intros N c HN Hc. destruct (moment_c N c ltac:(lia) ltac:(lra)) as (M1 & M2).
  set (f := fun u => exp (c * ln u)) in *.
  assert (HM : 1 <= INR (N - 1)) by (apply (le_INR 1); lia).
  assert (EN : INR N = INR (N - 1) + 1) by (rewrite <- S_INR; f_equal; lia).
  assert (E : sumR (map f (grid N)) = sumR (map f (inner N)) + 1).
  { unfold grid, inner. assert (ES : seq 1 N = seq 1 (N - 1) ++ [N]).
    { transitivity (seq 1 (S (N - 1))); [f_equal; lia|]. rewrite seq_S. do 2 f_equal. lia. }
    rewrite ES, !map_app, sumR_app', !map_map. cbn [map sumR]. f_equal. unfold f.
    replace (INR N / INR N) with 1 by (field; lra). rewrite ln_1, Rmult_0_r, exp_0. ring. }
  unfold mu in *. rewrite grid_length in *. rewrite inner_length. rewrite E, EN in M1, M2.
  set (s := sumR (map f (inner N))) in *. set (M := INR (N - 1)) in *. set (a := / (1 + c)) in *.
  assert (Ha : / 2 <= a <= 1).
  { unfold a. split; [apply Rinv_le_contravar; lra|]. rewrite <- Rinv_1. apply Rinv_le_contravar; lra. }
  assert (B1 : a * (M + 1) <= s + 1).
  { apply (Rmult_le_compat_r (M + 1)) in M1; [|lra]. replace ((s + 1) / (M + 1) * (M + 1)) with (s + 1) in M1 by (field; lra). auto. }
  assert (B2 : s + 1 <= a * (M + 1) + 1).
  { apply (Rmult_le_compat_r (M + 1)) in M2; [|lra]. replace ((s + 1) / (M + 1) * (M + 1)) with (s + 1) in M2 by (field; lra).
    replace ((a + / (M + 1)) * (M + 1)) with (a * (M + 1) + 1) in M2 by (field; lra). auto. }
  assert (Hi : 0 < / M) by (apply Rinv_0_lt_compat; lra). unfold Rdiv.
  split; apply (Rmult_le_reg_r M); try lra.
  - replace (a * (1 - / M) * M) with (a * (M - 1)) by (field; lra). replace (s * / M * M) with s by (field; lra). nra.
  - replace (a * (1 + / M) * M) with (a * (M + 1)) by (field; lra). replace (s * / M * M) with s by (field; lra). nra.
Qed.
Lemma mean_lin : forall A B (h : B -> A -> R) c b l (all : list A), all <> [] ->
    mean (map (fun us => c + sumR (map (fun i => b i * h i us) l)) all) =
    c + sumR (map (fun i => b i * mean (map (h i) all)) l).
Proof.
  intros A B h c b l all Ha. assert (0 < INR (length all)) by (apply lt_0_INR; destruct all; [congruence|cbn; lia]).
  induction l as [|i l IH].
  - cbn [map sumR]. unfold mean. rewrite sumR_const, map_length. field. lra.
  - cbn [map sumR].
    assert (E : mean (map (fun us => c + (b i * h i us + sumR (map (fun i => b i * h i us) l))) all) =
                b i * mean (map (h i) all) + mean (map (fun us => c + sumR (map (fun i => b i * h i us) l)) all)).
    { unfold mean. rewrite !map_length.
      rewrite (map_ext _ (fun us => b i * h i us + (c + sumR (map (fun i => b i * h i us) l)))) by (intros; ring).
      rewrite sumR_plus, sumR_mult. field. lra. }
    rewrite E, IH. ring.
Qed.

Lemma pow_le_1 : forall x n, 0 <= x <= 1 -> x ^ n <= 1.
Proof. intros x n H. pose proof (pow_incr x 1 n H) as P. rewrite pow1 in P. exact P. Qed.

(** [all] are the lists of numbers [k / N], [1 <= k < N], one for each sample.
    The mean of the simulated evidences is that with the expected volumes, the
    products of [n / (n + 1)], with a relative error which vanishes for large
    N.  The evidence without simulation is at most this one, and at least this
    one times [exp (- sum 1 / (2 n ^ 2))]. *)
Theorem C108_expected_evidence : forall r N all, (2 <= N)%nat -> logl r <> [] -> StronglySorted Z.le (logl r) ->
    length (nlive_array r) = length (logl r) -> (forall n, In n (nlive_array r) -> (0 < n)%Z) -> NoDup all ->
    (forall us, In us all <-> length us = length (logl r) /\
                              forall u, In u us -> exists k, (1 <= k < N)%nat /\ u = INR k / INR N) ->
    exists z zs, evidence r None None = Ok (Some z) /\
      Forall2 (fun us zu => evidence r None (Some us) = Ok (Some zu)) all zs /\
      let n := length (logl r) in
      let nlive := map IZR (nlive_array r) in
      let expected := layers n (fun i => exp (fval (nth i (logl r) 0%Z)))
                               (fun i => prodR (map (fun n => n / (n + 1)) (firstn (S i) nlive))) in
      expected * (1 - / INR (N - 1)) ^ n <= mean zs <= expected * (1 + / INR (N - 1)) ^ n /\
      z <= expected <= z * exp (sumR (map (fun n => / (2 * n ^ 2)) nlive)).
Proof.
  intros r N all HN Hne Hsort Hl Hpos Hnd Hall.
  set (L := fun i => exp (fval (nth i (logl r) 0%Z))). set (n := length (logl r)) in *.
  set (X := fun sim i => exp (nth i (cumsum (logx_steps (nlive_array r) sim)) 0)).
  exists (layers n L (X None)), (map (fun us => layers n L (X (Some us))) all).
  assert (HN1 : 0 < INR N) by (apply lt_0_INR; lia).
  assert (Hin : forall u k, (1 <= k < N)%nat -> u = INR k / INR N -> 0 < u < 1).
  { intros u k Hk ->. destruct (grid_point N k ltac:(lia)) as (G1 & _). split; auto.
    apply (Rmult_lt_reg_r (INR N)); auto. replace (INR k / INR N * INR N) with (INR k) by (field; lra). rewrite Rmult_1_l. apply lt_INR. lia. }
  split; [apply evidence_layers; auto; exact I|]. split.
  { assert (G : forall l, (forall us, In us l -> In us all) -> Forall2 (fun us zu => evidence r None (Some us) = Ok (Some zu)) l (map (fun us => layers n L (X (Some us))) l)).
    { induction l as [|us l IH]; intros Hi; cbn [map]; constructor; [|apply IH; intros; apply Hi; right; auto].
      apply evidence_layers; auto. cbn [draws_ok]. destruct (proj1 (Hall us) (Hi us (or_introl eq_refl))) as (A & B). split; [lia|].
      intros u Hu. destruct (B u Hu) as (k & Hk & E). eapply Hin; eauto. }
    apply G. auto. }
  intros n' nlive expected. subst n'. set (A := fun i => prodR (map (fun n => n / (n + 1)) (firstn (S i) nlive))) in *.
  assert (HLm : forall i, (S i < n)%nat -> L i <= L (S i)).
  { intros i Hi. unfold L. apply exp_mono. unfold fval. apply Rmult_le_compat_r.
    - unfold funit. left. apply Rinv_0_lt_compat. apply pow_lt. lra.
    - apply IZR_le. clear - Hsort Hi. unfold n in Hi. revert i Hi. induction Hsort as [|x l Hs IH Hf]; intros i Hi; [cbn in Hi; lia|].
      destruct i as [|i].
      + destruct l as [|y l]; [cbn in Hi; lia|]. cbn [nth]. inversion Hf; auto.
      + cbn [nth]. apply IH. cbn in Hi. lia. }
  assert (HL0 : 0 < L 0%nat) by (unfold L; apply exp_pos).
  assert (Hnl : forall i x, In x (firstn (S i) nlive) -> 1 <= x).
  { intros i x Hx. assert (Hx' : In x nlive) by (rewrite <- (firstn_skipn (S i) nlive); apply in_or_app; auto).
    unfold nlive in Hx'. apply in_map_iff in Hx' as (m & <- & Hm). apply IZR_le. specialize (Hpos m Hm). lia. }
  assert (Hfac : forall x, 1 <= x -> 0 < / x <= 1 /\ x / (x + 1) = / (1 + / x) /\ / 2 <= / (1 + / x)).
  { intros x Hx. assert (0 < / x) by (apply Rinv_0_lt_compat; lra).
    assert (/ x <= 1) by (rewrite <- Rinv_1; apply Rinv_le_contravar; lra).
    split; [lra|]. split; [field; lra|]. apply Rinv_le_contravar; lra. }
  assert (Hlen : forall i, (i < n)%nat -> length (firstn (S i) nlive) = S i).
  { intros i Hi. rewrite firstn_length. unfold nlive. rewrite map_length. unfold n in *. lia. }
  set (d := / INR (N - 1)).
  assert (Hd : 0 < d <= 1).
  { unfold d. assert (1 <= INR (N - 1)) by (apply (le_INR 1); lia). split; [apply Rinv_0_lt_compat; lra|].
    rewrite <- Rinv_1. apply Rinv_le_contravar; lra. }
  assert (HA : forall i, 0 <= A i).
  { intros i. unfold A. assert (G : forall x, In x (firstn (S i) nlive) -> 0 <= x / (x + 1)).
    { intros x Hx. apply Hnl in Hx. destruct (Hfac x Hx) as (_ & -> & H). lra. }
    induction (firstn (S i) nlive) as [|x l IH]; cbn [map prodR]; [lra|]. apply Rmult_le_pos; [apply G; left; auto|]. apply IH. intros; apply G; right; auto. }
  assert (Hexp : 0 < L 0%nat <= expected).
  { split; auto. unfold expected, layers. fold L. fold A.
    assert (0 <= sumR (map (fun i => (L (S i) - L i) * ((A i + A (S i)) / 2)) (seq 0 (n - 1)))); [|lra].
    rewrite <- (Rmult_0_r (INR (length (seq 0 (n - 1))))), <- (sumR_const nat 0 (seq 0 (n - 1))).
    apply sumR_le. intros i Hi. apply in_seq in Hi. pose proof (HLm i ltac:(lia)). pose proof (HA i). pose proof (HA (S i)).
    apply Rmult_le_pos; lra. }
  split.
  - set (g := inner N).
    assert (Hg : g <> []) by (intros E; apply (f_equal (@length R)) in E; unfold g in E; rewrite inner_length in E; cbn in E; lia).
    assert (Hp : Permutation all (all_lists g n)).
    { apply NoDup_Permutation; auto; [apply all_lists_NoDup, inner_NoDup; lia|]. intros us. rewrite Hall, in_all_lists.
      split; intros (B & C); split; auto; intros u Hu.
      - destruct (C u Hu) as (k & Hk & ->). unfold g, inner. apply (in_map (fun k => INR k / INR N)), in_seq. lia.
      - apply C in Hu. unfold g, inner in Hu. apply in_map_iff in Hu as (k & <- & Hk). apply in_seq in Hk. exists k. split; auto. lia. }
    assert (Hane : all <> []).
    { intros E. subst all. apply Permutation_nil in Hp. pose proof (all_lists_length g n) as E. rewrite Hp in E. cbn in E.
      symmetry in E. apply Nat.pow_nonzero in E; auto. destruct g; [congruence|discriminate]. }
    set (EX := fun i => mean (map (fun us => X (Some us) i) all)).
    assert (Emean : mean (map (fun us => layers n L (X (Some us))) all) = layers n L EX).
    { unfold layers. rewrite (mean_lin _ _ (fun i us => (X (Some us) i + X (Some us) (S i)) / 2)) by auto. f_equal. f_equal.
      apply map_ext. intros i. f_equal. unfold EX, mean. rewrite !map_length. unfold Rdiv.
      rewrite (map_ext _ (fun us => / 2 * (X (Some us) i + X (Some us) (S i)))) by (intros; ring). rewrite sumR_mult, sumR_plus. ring. }
    assert (HEX : forall i, (i < n)%nat -> A i * (1 - d) ^ n <= EX i <= A i * (1 + d) ^ n).
    { intros i Hi. set (a := map (fun x => / x) (firstn (S i) nlive)).
      assert (Ha : (length a <= n)%nat) by (unfold a; rewrite map_length, Hlen by auto; lia).
      assert (E : EX i = prodR (map (fun x => mu g (fun u => exp (/ x * ln u))) (firstn (S i) nlive))).
      { rewrite <- (map_map (fun x => / x) (fun c => mu g (fun u => exp (c * ln u)))). fold a.
        rewrite <- (ex_prod g a n Hg Ha), <- ex_sum by auto. unfold EX.
        transitivity (mean (map (fun us => exp (dot a us)) all)).
        - f_equal. apply map_ext_in. intros us Hu. apply Hall in Hu as (Hu & _). unfold X. f_equal.
          cbn [logx_steps]. rewrite cumsum_dot by lia. unfold a, nlive. rewrite firstn_map, map_map. auto.
        - unfold mean. rewrite !map_length, (Permutation_length Hp). f_equal. apply sumR_perm', Permutation_map, Hp. }
      rewrite E.
      destruct (prod_bounds R (fun x => x / (x + 1) * (1 - d)) (fun x => mu g (fun u => exp (/ x * ln u))) (fun x => x / (x + 1) * (1 + d)) (firstn (S i) nlive)) as ((_ & B1) & B2).
      { intros x Hx. apply Hnl in Hx. destruct (Hfac x Hx) as (F1 & F2 & F3). rewrite F2.
        destruct (moment_inner N (/ x) HN F1) as (M1 & M2). fold g d in M1, M2. split; [split|]; auto.
        apply Rmult_le_pos; lra. }
      rewrite prod_scale in B1, B2. rewrite Hlen in B1, B2 by auto. fold (A i) in B1, B2.
      pose proof (HA i).
      assert (P1 : (1 - d) ^ n <= (1 - d) ^ S i).
      { replace n with (S i + (n - S i))%nat by lia. rewrite pow_add. rewrite <- (Rmult_1_r ((1 - d) ^ S i)) at 2.
        apply Rmult_le_compat_l; [apply pow_le; lra|]. apply pow_le_1. lra. }
      assert (P2 : (1 + d) ^ S i <= (1 + d) ^ n) by (apply Rle_pow; [lra|lia]).
      split; [eapply Rle_trans; [|exact B1]|eapply Rle_trans; [exact B2|]]; apply Rmult_le_compat_l; auto. }
    rewrite Emean. change expected with (layers n L A) in *.
    assert (Q1 : 0 <= (1 - d) ^ n <= 1) by (split; [apply pow_le; lra|apply pow_le_1; lra]).
    assert (Q2 : 1 <= (1 + d) ^ n) by (apply pow_R1_Rle; lra).
    split.
    + eapply Rle_trans; [|apply (layers_mono n L (fun i => A i * (1 - d) ^ n)); auto; intros i Hi; apply HEX; auto].
      rewrite layers_scale. nra.
    + eapply Rle_trans; [apply (layers_mono n L EX (fun i => A i * (1 + d) ^ n)); auto; intros i Hi; apply HEX; auto|].
      rewrite layers_scale. nra.
  - change expected with (layers n L A) in *.
    set (v := sumR (map (fun n => / (2 * n ^ 2)) nlive)).
    assert (Hnone : forall i, (i < n)%nat -> X None i <= A i <= X None i * exp v).
    { intros i Hi. assert (E3 : X None i = exp (- sumR (map (fun x => / x) (firstn (S i) nlive)))).
      { unfold X. cbn [logx_steps]. rewrite cumsum_expected by lia. unfold nlive. rewrite firstn_map, map_map. auto. }
      destruct (prod_bounds R (fun x => exp (- / x)) (fun x => x / (x + 1)) (fun x => exp (- / x + (/ x) ^ 2 / 2)) (firstn (S i) nlive)) as ((_ & B1) & B2).
      { intros x Hx. apply Hnl in Hx. destruct (Hfac x Hx) as (F1 & F2 & F3). rewrite F2.
        destruct (factor_bounds (/ x) ltac:(lra)) as (M1 & M2). pose proof (exp_pos (- / x)). lra. }
      fold (A i) in B1, B2. rewrite prod_exp in B1, B2.
      assert (Eo : sumR (map (fun x => - / x) (firstn (S i) nlive)) = - sumR (map (fun x => / x) (firstn (S i) nlive))).
      { clear. induction (firstn (S i) nlive) as [|x l IH]; cbn [map sumR]; [ring|]. rewrite IH. ring. }
      rewrite Eo in B1. rewrite E3. split; auto. rewrite <- exp_plus. eapply Rle_trans; [exact B2|]. apply exp_mono.
      rewrite sumR_plus, Eo. apply Rplus_le_compat_l. unfold v.
      rewrite <- (firstn_skipn (S i) nlive) at 2. rewrite map_app, sumR_app'.
      assert (Z0 : 0 <= sumR (map (fun n => / (2 * n ^ 2)) (skipn (S i) nlive))).
      { rewrite <- (Rmult_0_r (INR (length (skipn (S i) nlive)))), <- (sumR_const R 0 (skipn (S i) nlive)). apply sumR_le. intros x Hx.
        left. apply Rinv_0_lt_compat. assert (Hx' : In x nlive) by (rewrite <- (firstn_skipn (S i) nlive); apply in_or_app; auto).
        unfold nlive in Hx'. apply in_map_iff in Hx' as (m & <- & Hm). specialize (Hpos m Hm). apply IZR_lt in Hpos.
        assert (0 < IZR m ^ 2) by (apply pow_lt; auto). lra. }
      assert (Z1 : sumR (map (fun x => (/ x) ^ 2 / 2) (firstn (S i) nlive)) = sumR (map (fun n => / (2 * n ^ 2)) (firstn (S i) nlive))).
      { f_equal. apply map_ext_in. intros x Hx. apply Hnl in Hx. field. lra. }
      rewrite Z1. lra. }
    split.
    + apply layers_mono; auto. intros i Hi. apply Hnone; auto.
    + eapply Rle_trans; [apply (layers_mono n L A (fun i => X None i * exp v)); auto; intros i Hi; apply Hnone; auto|].
      rewrite layers_scale. assert (Hv : 1 <= exp v); [|nra].
      rewrite <- exp_0. apply exp_mono. unfold v.
      rewrite <- (Rmult_0_r (INR (length nlive))), <- (sumR_const R 0 nlive). apply sumR_le. intros x Hx.
      left. apply Rinv_0_lt_compat. unfold nlive in Hx. apply in_map_iff in Hx as (m & <- & Hm). specialize (Hpos m Hm). apply IZR_lt in Hpos.
      assert (0 < IZR m ^ 2) by (apply pow_lt; auto). lra.
Qed.
Print Assumptions C108_expected_evidence.

Example C108_evidence_example : exists all : list (list R), NoDup all /\
    (forall us, In us all <-> length us = length (logl run_w) /\
                              forall u, In u us -> exists k, (1 <= k < 3)%nat /\ u = INR k / INR 3) /\
    In [1 / 3; 2 / 3; 2 / 3; 1 / 3] all /\
    logl run_w <> [] /\ StronglySorted Z.le (logl run_w) /\ length (nlive_array run_w) = length (logl run_w) /\
    forall n, In n (nlive_array run_w) -> (0 < n)%Z.
Proof.
  exists (all_lists (inner 3) 4). split; [apply all_lists_NoDup, inner_NoDup; lia|]. split; [|split; [|split; [discriminate|]]].
  - intros us. rewrite in_all_lists. cbn [length run_w logl]. split; intros (A & B); split; auto; intros u Hu.
    + apply B in Hu. unfold inner in Hu. apply in_map_iff in Hu as (k & <- & Hk). apply in_seq in Hk. exists k. split; [lia|auto].
    + destruct (B u Hu) as (k & Hk & ->). unfold inner. apply (in_map (fun k => INR k / INR 3)), in_seq. lia.
  - apply in_all_lists. split; auto.
    assert (E1 : In (1 / 3) (inner 3)) by (cbn; left; lra). assert (E2 : In (2 / 3) (inner 3)) by (cbn; right; left; lra).
    intros u [<-|[<-|[<-|[<-|[]]]]]; auto.
  - split; [cbn; repeat constructor; lia|]. split; auto. intros n [<-|[<-|[<-|[<-|[]]]]]; lia.
Qed.
