(** C54: the weighted kernel density estimate. *)
From Coq Require Import Lra.
From Verif Require Import Base ModelRun ModelReal ModelStats ModelPlots SpecReal ProofBase ProofReal ProofStats.
Local Open Scope R_scope.

(** ** Effective number of samples *)

Lemma nonzero_true : forall x, nonzero x = true <-> x <> 0.
Proof. intros. unfold nonzero. destruct (Req_EM_T x 0); split; congruence. Qed.
Lemma rsum_nonzero : forall l, rsum (filter nonzero l) = rsum l.
Proof.
  induction l as [|x t IH]; auto. cbn [filter]. unfold nonzero at 1. destruct (Req_EM_T x 0) as [->|H].
  - rewrite rsum_cons, IH. lra.
  - rewrite !rsum_cons, IH. auto.
Qed.
Lemma rsum_normalised : forall w, rsum w <> 0 -> rsum (normalised w) = 1.
Proof.
  intros w H. unfold normalised. rewrite (rsum_div _ (fun x => x) (rsum w) w), map_id. field. auto.
Qed.
Lemma normalised_length : forall w, length (normalised w) = length w.
Proof. intros. apply map_length. Qed.
Lemma filter_normalised : forall w, rsum w <> 0 ->
    filter nonzero (normalised w) = map (fun a => a / rsum w) (filter nonzero w).
Proof.
  intros w. unfold normalised. generalize (rsum w) as c. intros c Hc. induction w as [|x t IH]; auto.
  cbn [map filter]. rewrite IH. assert (H : nonzero (x / c) = nonzero x).
  { unfold nonzero. destruct (Req_EM_T (x / c) 0) as [H|H], (Req_EM_T x 0) as [H'|H']; auto.
    - exfalso. apply H'. replace x with (x / c * c) by (field; auto). rewrite H. lra.
    - exfalso. apply H. rewrite H'. unfold Rdiv. lra. }
  rewrite H. destruct (nonzero x); auto.
Qed.

Lemma ln_le_sub : forall x, 0 < x -> ln x <= x - 1 /\ (ln x = x - 1 -> x = 1).
Proof.
  intros x Hx. destruct (Req_EM_T (x - 1) 0) as [He|He].
  - assert (x = 1) by lra. subst. rewrite ln_1. lra.
  - assert (H : 1 + (x - 1) < exp (x - 1)) by (apply exp_ineq1; auto).
    assert (H1 : ln x < x - 1).
    { rewrite <- (ln_exp (x - 1)). apply ln_increasing; lra. }
    split; lra.
Qed.

(** Shannon entropy; 0 ln 0 is 0. *)
Definition entropy (p : list R) : R := sumR (map (fun a => - (a * ln a)) p).

Lemma entropy_filter : forall (w : list R) c,
    entropy (map (fun a => a / c) (filter nonzero w)) = entropy (map (fun a => a / c) w).
Proof.
  intros w c. induction w as [|x t IH]; auto. unfold entropy in *. cbn [filter]. destruct (nonzero x) eqn:H.
  - cbn [map sumR]. rewrite IH. auto.
  - rewrite IH. cbn [map sumR]. unfold nonzero in H. destruct (Req_EM_T x 0) as [->|]; [|discriminate]. unfold Rdiv. lra.
Qed.
Lemma rsum_eq_all : forall A (f g : A -> R) l, (forall x, In x l -> f x <= g x) ->
    rsum (map f l) = rsum (map g l) -> forall x, In x l -> f x = g x.
Proof.
  induction l as [|y t IH]; intros Hle He x Hx; [destruct Hx|].
  cbn [map] in He. rewrite !rsum_cons in He.
  assert (H1 : f y <= g y) by (apply Hle; left; auto).
  assert (H2 : rsum (map f t) <= rsum (map g t)) by (apply rsum_le; intros; apply Hle; right; auto).
  destruct Hx as [<-|Hx]; [lra|]. apply IH; auto; [intros; apply Hle; right; auto|lra].
Qed.

Section Gibbs.
  Variable p : list R.
  Hypothesis Hp : forall a, In a p -> 0 < a.
  Hypothesis Hs : rsum p = 1.

  Let m := INR (length p).
  Lemma m_pos : 0 < m.
  Proof. unfold m. apply lt_0_INR. destruct p; [unfold rsum in Hs; cbn in Hs; lra|cbn; lia]. Qed.
  Lemma p_le_1 : forall a, In a p -> a <= 1.
  Proof.
    intros a Ha. rewrite <- Hs. clear Hs m. induction p as [|x t IH]; [destruct Ha|]. rewrite rsum_cons.
    assert (0 <= rsum t) by (apply rsum_nonneg; intros; left; apply Hp; right; auto).
    destruct Ha as [<-|Ha]; [lra|]. assert (0 < x) by (apply Hp; left; auto).
    assert (a <= rsum t) by (apply IH; auto; intros; apply Hp; right; auto). lra.
  Qed.
  Lemma entropy_rsum : -1 * rsum (map (fun a => a * ln a) p) = entropy p.
  Proof. unfold entropy. change sumR with rsum. rewrite <- (rsum_scale _ (fun a => a * ln a) (-1)). apply rsum_ext_in. intros. lra. Qed.

  Lemma entropy_nonneg : 0 <= entropy p /\ (entropy p = 0 -> forall a, In a p -> a = 1).
  Proof.
    assert (H : forall a, In a p -> 0 <= - (a * ln a)).
    { intros a Ha. pose proof (p_le_1 a Ha). pose proof (Hp a Ha).
      assert (ln a <= 0) by (destruct (ln_le_sub a); auto; lra).
      assert (0 <= a * - ln a) by (apply Rmult_le_pos; lra). lra. }
    unfold entropy. change sumR with rsum. split.
    - apply rsum_nonneg. intros x Hx. apply in_map_iff in Hx as (a & <- & Ha). auto.
    - intros He a Ha. assert (H0 : 0 = - (a * ln a)).
      { apply (rsum_eq_all _ (fun _ => 0) (fun a => - (a * ln a)) p); auto. rewrite rsum_const, He. lra. }
      pose proof (Hp a Ha). assert (Hz : ln a = 0).
      { apply (Rmult_eq_reg_l a); lra. }
      rewrite <- (exp_ln a), Hz, exp_0; auto.
  Qed.

  Lemma entropy_le : entropy p <= ln m /\ (entropy p = ln m -> forall a, In a p -> a = / m).
  Proof.
    pose proof m_pos as Hm.
    assert (Hterm : forall a, In a p -> - (a * ln a) - a * ln m <= / m - a /\
                                        (- (a * ln a) - a * ln m = / m - a -> a = / m)).
    { intros a Ha. pose proof (Hp a Ha) as Hpa.
      assert (Hx : 0 < / (a * m)) by (apply Rinv_0_lt_compat, Rmult_lt_0_compat; auto).
      destruct (ln_le_sub _ Hx) as [H1 H2].
      assert (Hl : ln (/ (a * m)) = - ln a - ln m) by (rewrite ln_Rinv, ln_mult; auto; [lra|apply Rmult_lt_0_compat; auto]).
      assert (He : a * (/ (a * m) - 1) = / m - a) by (field; split; lra).
      split.
      - apply (Rmult_le_compat_l a) in H1; [|lra]. rewrite He, Hl in H1. lra.
      - intros Heq. rewrite <- He in Heq.
        assert (H3 : ln (/ (a * m)) = / (a * m) - 1) by (rewrite Hl; apply (Rmult_eq_reg_l a); lra).
        apply H2 in H3. apply (Rmult_eq_reg_r m); [|lra]. rewrite Rinv_l by lra.
        rewrite <- (Rinv_inv (a * m)), H3. apply Rinv_1. }
    assert (Hsum1 : rsum (map (fun a => - (a * ln a) - a * ln m) p) = entropy p - ln m).
    { rewrite (map_ext _ (fun a => - (a * ln a) + - ln m * a)) by (intros; lra).
      rewrite (rsum_plus _ (fun a => - (a * ln a)) (fun a => - ln m * a)), (rsum_scale _ (fun a => a) (- ln m) p), map_id, Hs. unfold entropy. change sumR with rsum. lra. }
    assert (Hsum2 : rsum (map (fun a => / m - a) p) = 0).
    { rewrite (map_ext _ (fun a => / m + -1 * a)) by (intros; lra).
      rewrite (rsum_plus _ (fun _ => / m) (fun a => -1 * a)), rsum_const, (rsum_scale _ (fun a => a) (-1) p), map_id, Hs. fold m. rewrite Rinv_r by lra. lra. }
    split.
    - assert (H := rsum_le _ (fun a => - (a * ln a) - a * ln m) (fun a => / m - a) p (fun a Ha => proj1 (Hterm a Ha))).
      rewrite Hsum1, Hsum2 in H. lra.
    - intros He a Ha. apply (Hterm a Ha).
      apply (rsum_eq_all _ (fun a => - (a * ln a) - a * ln m) (fun a => / m - a) p); auto.
      + intros x Hx. apply Hterm; auto.
      + rewrite Hsum1, Hsum2, He. lra.
  Qed.
End Gibbs.

Lemma neff_run : forall w, (forall a, In a w -> 0 <= a) -> 0 < rsum w ->
    nsamp_eff w = Some (exp (entropy (map (fun a => a / rsum w) (filter nonzero w)))) /\
    (forall a, In a (map (fun a => a / rsum w) (filter nonzero w)) -> 0 < a) /\
    rsum (map (fun a => a / rsum w) (filter nonzero w)) = 1.
Proof.
  intros w Hn Hs. set (p := map (fun a => a / rsum w) (filter nonzero w)).
  assert (Hp : forall a, In a p -> 0 < a).
  { intros a Ha. apply in_map_iff in Ha as (b & <- & Hb). apply filter_In in Hb as [Hb Hz].
    apply nonzero_true in Hz. apply Hn in Hb. apply Rdiv_lt_0_compat; lra. }
  split; [|split; auto].
  - unfold nsamp_eff. destruct (Req_EM_T (rsum w) 0); [lra|]. rewrite filter_normalised by auto. fold p.
    assert (He : existsb negative p = false).
    { apply Bool.not_true_is_false. intros H. apply existsb_exists in H as (a & Ha & Hb). apply Hp in Ha.
      unfold negative in Hb. destruct (Rlt_dec a 0); [lra|discriminate]. }
    rewrite He, entropy_rsum. auto.
  - unfold p. rewrite (rsum_div _ (fun x => x) (rsum w)), map_id, rsum_nonzero. field. lra.
Qed.

(** The effective number of samples is between 1 and the number of samples with
    nonzero weight; it is 1 only if there is one, and it is their number only
    if they have equal weights. *)
Theorem C54_effective_samples : forall w,
    (forall a, In a w -> 0 <= a) -> 0 < sumR w ->
    let pos := filter nonzero w in
    exists n, nsamp_eff w = Some n /\ n = exp (entropy (map (fun a => a / sumR w) w)) /\
      1 <= n <= INR (length pos) /\ (length pos <= length w)%nat /\
      (n = 1 <-> length pos = 1%nat) /\
      (n = INR (length pos) <-> forall a b, In a pos -> In b pos -> a = b).
Proof.
  intros w Hn Hs0 pos. assert (Hs : 0 < rsum w) by (rewrite rsum_sumR; auto).
  destruct (neff_run w Hn Hs) as (H1 & Hp & H2). fold pos in H1, Hp, H2.
  set (p := map (fun a => a / rsum w) pos) in *.
  assert (Hlen : length p = length pos) by apply map_length.
  pose proof (entropy_nonneg p Hp H2) as [Hlo Hlo'].
  pose proof (entropy_le p Hp H2) as [Hhi Hhi']. pose proof (m_pos p Hp H2) as Hm. rewrite Hlen in Hm, Hhi, Hhi'.
  assert (Hle : exp (entropy p) <= INR (length pos)).
  { rewrite <- (exp_ln (INR (length pos))) by auto. destruct Hhi as [Hhi|Hhi]; [left; apply exp_increasing; auto|rewrite Hhi; lra]. }
  exists (exp (entropy p)). split; [auto|]. split; [unfold p, pos; rewrite entropy_filter; reflexivity|]. split; [split; auto|split; [|split]].
  - rewrite <- exp_0. destruct Hlo as [Hlo|Hlo]; [left; apply exp_increasing; auto|rewrite <- Hlo; lra].
  - unfold pos. clear. induction w; cbn [filter length]; auto. destruct (nonzero a); cbn [length]; lia.
  - split; intros H.
    + assert (Hz : entropy p = 0) by (rewrite <- (ln_exp (entropy p)), H; apply ln_1).
      specialize (Hlo' Hz). rewrite <- Hlen.
      assert (Hr : rsum p = INR (length p)).
      { rewrite <- (map_id p) at 1. rewrite (rsum_ext_in _ (fun x => x) (fun _ => 1)) by auto. rewrite rsum_const. lra. }
      rewrite H2 in Hr. apply INR_eq. rewrite <- Hr. reflexivity.
    + rewrite H in Hle. cbn in Hle. apply Rle_antisym; auto.
      rewrite <- exp_0. destruct Hlo as [Hlo|Hlo]; [left; apply exp_increasing; auto|rewrite <- Hlo; lra].
  - split; intros H.
    + assert (Hz : entropy p = ln (INR (length pos))) by (rewrite <- (ln_exp (entropy p)), H; auto).
      specialize (Hhi' Hz). intros a b Ha Hb.
      assert (Hg : forall c, In c pos -> c = / INR (length pos) * rsum w).
      { intros c Hc. rewrite <- (Hhi' (c / rsum w)); [field; lra|]. apply in_map_iff. eauto. }
      rewrite (Hg a Ha), (Hg b Hb). auto.
    + assert (Hc : exists c, In c pos).
      { destruct pos as [|c t]; [cbn in Hm; lra|exists c; left; auto]. }
      destruct Hc as [c Hc].
      assert (Hall : forall a, In a p -> a = / INR (length pos)).
      { assert (Hg : forall a, In a p -> a = c / rsum w).
        { intros a Ha. apply in_map_iff in Ha as (b & <- & Hb). rewrite (H b c); auto. }
        assert (Hr : rsum p = INR (length pos) * (c / rsum w)).
        { rewrite <- (map_id p), (rsum_ext_in _ (fun x => x) (fun _ => c / rsum w)), rsum_const, Hlen; auto. }
        rewrite H2 in Hr. intros a Ha. rewrite (Hg a Ha).
        apply (Rmult_eq_reg_l (INR (length pos))); [|lra]. rewrite <- Hr. field. lra. }
      unfold entropy. change sumR with rsum.
      rewrite (rsum_ext_in _ _ (fun _ => - (/ INR (length pos) * ln (/ INR (length pos))))) by (intros a Ha; rewrite (Hall a Ha); auto).
      rewrite rsum_const, Hlen, ln_Rinv by auto.
      replace (INR (length pos) * - (/ INR (length pos) * - ln (INR (length pos)))) with (ln (INR (length pos))) by (field; lra).
      apply exp_ln; auto.
Qed.

(** ** The estimate *)

(** Density at [x] of the normal distribution. *)
Definition gauss (mu sig x : R) : R := exp (- (x - mu) ^ 2 / (2 * sig ^ 2)) / (sig * sqrt (2 * PI)).

Lemma rsum_map2 : forall A B (f : A -> B -> R) a b da db, length a = length b ->
    rsum (map2 f a b) = sumR (map (fun i => f (nth i a da) (nth i b db)) (seq 0 (length a))).
Proof.
  intros A B f a b da db. revert b. induction a as [|x a IH]; intros [|y b] H; cbn [length] in H; try discriminate; auto.
  unfold map2 in *. cbn [combine map fst snd length seq sumR nth]. rewrite rsum_cons, IH by lia.
  rewrite <- seq_shift, map_map. reflexivity.
Qed.
Lemma sumR_seq : forall l, sumR (map (fun i => nth i l 0) (seq 0 (length l))) = rsum l.
Proof.
  induction l as [|x t IH]; auto. cbn [length seq map sumR nth]. rewrite <- seq_shift, map_map, IH. reflexivity.
Qed.
Lemma nth_normalised : forall w i, nth i (normalised w) 0 = nth i w 0 / rsum w.
Proof.
  intros. unfold normalised. replace 0 with (0 / rsum w) at 1 by (unfold Rdiv; lra).
  apply (map_nth (fun a => a / rsum w)).
Qed.
Lemma sum_average : forall n w x, sumR (map (fun i => w i / sumR (map w (seq 0 n)) * x i) (seq 0 n)) = average n w x.
Proof.
  intros. unfold average. change sumR with rsum. generalize (rsum (map w (seq 0 n))) as c. intros c.
  rewrite <- (rsum_div _ (fun i => w i * x i)). apply rsum_ext_in. intros. unfold Rdiv. lra.
Qed.

(** Weighted mean and variance of the samples. *)
Definition w_mean (samples weights : list R) : R :=
  average (length samples) (fun i => nth i weights 0) (fun i => nth i samples 0).
Definition w_var (samples weights : list R) : R :=
  average (length samples) (fun i => nth i weights 0)
          (fun i => (nth i samples 0 - w_mean samples weights) ^ 2).

Lemma mu_average : forall samples weights, length samples = length weights ->
    rsum (map2 Rmult (normalised weights) samples) = w_mean samples weights.
Proof.
  intros samples weights H. rewrite (rsum_map2 _ _ Rmult _ _ 0 0) by (rewrite normalised_length; auto).
  unfold w_mean. rewrite <- sum_average, H, sumR_seq, normalised_length.
  f_equal. apply map_ext. intros i. rewrite nth_normalised. auto.
Qed.
Lemma var_average : forall samples weights, length samples = length weights ->
    rsum (map2 (fun a s => a * (s - w_mean samples weights) ^ 2) (normalised weights) samples) = w_var samples weights.
Proof.
  intros samples weights H. rewrite (rsum_map2 _ _ _ _ _ 0 0) by (rewrite normalised_length; auto).
  unfold w_var. rewrite <- sum_average, H, sumR_seq, normalised_length.
  f_equal. apply map_ext. intros i. rewrite nth_normalised. auto.
Qed.
Lemma gauss_form : forall s sig x, 0 < sig ->
    exp (-0.5 * ((x - s) / sig) ^ 2) / sqrt (2 * PI * sig ^ 2) = gauss s sig x.
Proof.
  intros s sig x H. unfold gauss. pose proof PI_RGT_0. rewrite sqrt_mult by (try apply pow2_ge_0; lra).
  rewrite sqrt_pow2 by lra. rewrite (Rmult_comm sig). f_equal. f_equal. replace (-0.5) with (- (1 / 2)) by lra. field. lra.
Qed.
Lemma kde_average : forall samples weights sig x, length samples = length weights -> 0 < sig ->
    kde_at samples (normalised weights) sig x =
    average (length samples) (fun i => nth i weights 0) (fun i => gauss (nth i samples 0) sig x).
Proof.
  intros samples weights sig x H Hs. unfold kde_at.
  rewrite (rsum_map2 _ _ _ _ _ 0 0) by (rewrite normalised_length; auto).
  assert (Hw : sumR (map (fun i => nth i weights 0) (seq 0 (length samples))) = rsum weights) by (rewrite H; apply sumR_seq).
  rewrite <- sum_average, Hw. f_equal. apply map_ext. intros i.
  rewrite nth_normalised, gauss_form by auto. lra.
Qed.

Lemma two_nonzero : forall w i j, (i < j)%nat -> nth i w 0 <> 0 -> nth j w 0 <> 0 ->
    (2 <= length (filter nonzero w))%nat.
Proof.
  induction w as [|x t IH]; intros i j Hij Hi Hj; [destruct i; cbn in Hi; congruence|].
  assert (H1 : forall k, nth k t 0 <> 0 -> (1 <= length (filter nonzero t))%nat).
  { clear. intros k Hk. assert (Hin : In (nth k t 0) (filter nonzero t)).
    { apply filter_In. split; [|apply nonzero_true; auto]. apply nth_In.
      destruct (Nat.lt_ge_cases k (length t)); auto. rewrite nth_overflow in Hk by auto. congruence. }
    destruct (filter nonzero t); [destruct Hin|cbn; lia]. }
  destruct j as [|j]; [lia|]. destruct i as [|i]; cbn [nth] in Hi, Hj.
  - cbn [filter]. rewrite (proj2 (nonzero_true x)) by auto. cbn [length]. specialize (H1 j Hj). lia.
  - cbn [filter]. assert (2 <= length (filter nonzero t))%nat by (apply (IH i j); auto; lia).
    destruct (nonzero x); cbn [length]; lia.
Qed.

Lemma average_pos_term : forall n (w f : nat -> R) k, (k < n)%nat -> (forall i, (i < n)%nat -> 0 <= w i) ->
    (forall i, (i < n)%nat -> 0 <= f i) -> 0 < w k -> 0 < f k -> 0 < average n w f.
Proof.
  intros n w f k Hk Hw Hf H1 H2.
  assert (Hg : forall g : nat -> R, (forall i, (i < n)%nat -> 0 <= g i) -> 0 < g k -> 0 < sumR (map g (seq 0 n))).
  { intros g Hg Hgk. change sumR with rsum. assert (Hin : In k (seq 0 n)) by (apply in_seq; lia).
    apply in_split in Hin as (l1 & l2 & Hl).
    assert (Ha : forall l, (forall i, In i l -> In i (seq 0 n)) -> 0 <= rsum (map g l)).
    { intros l Hs. apply rsum_nonneg. intros x Hx. apply in_map_iff in Hx as (i & <- & Hi).
      apply Hg. apply Hs in Hi. apply in_seq in Hi. lia. }
    rewrite Hl, map_app, rsum_app. cbn [map]. rewrite rsum_cons.
    assert (0 <= rsum (map g l1)) by (apply Ha; intros; rewrite Hl; apply in_or_app; auto).
    assert (0 <= rsum (map g l2)) by (apply Ha; intros; rewrite Hl; apply in_or_app; right; right; auto). lra. }
  unfold average. apply Rdiv_lt_0_compat; apply Hg; auto.
  - intros i Hi. apply Rmult_le_pos; auto.
  - apply Rmult_lt_0_compat; auto.
Qed.
Lemma gauss_pos : forall s sig x, 0 < sig -> 0 < gauss s sig x.
Proof.
  intros. unfold gauss. apply Rdiv_lt_0_compat; [apply exp_pos|]. apply Rmult_lt_0_compat; auto.
  apply sqrt_lt_R0. pose proof PI_RGT_0. lra.
Qed.

Definition bandwidth (samples weights : list R) (n : R) : R :=
  sqrt (w_var samples weights * (n / (n - 1))) * Rpower n (-1 / 5).

(** The estimate is the weighted average of normal densities at the samples,
    whose standard deviation is Scott's factor times the unbiased standard
    deviation of the samples, both with the effective number of samples; it is
    finite and positive as soon as two different samples have nonzero weight. *)
Theorem C54_kde : forall xs samples weights i j,
    length samples = length weights ->
    (forall a, In a weights -> 0 <= a) ->
    (i < j < length samples)%nat -> nth i weights 0 <> 0 -> nth j weights 0 <> 0 ->
    nth i samples 0 <> nth j samples 0 ->
    exists n sig, n = exp (entropy (map (fun a => a / sumR weights) weights)) /\ 1 < n /\ 0 < sig /\
      sig = bandwidth samples weights n /\
      weighted_1d_gaussian_kde xs samples weights =
        Ok (map (fun x => Some (average (length samples) (fun k => nth k weights 0)
                                        (fun k => gauss (nth k samples 0) sig x))) xs) /\
      forall x, 0 < average (length samples) (fun k => nth k weights 0) (fun k => gauss (nth k samples 0) sig x).
Proof.
  intros xs samples weights i j Hl Hn Hij Hi Hj Hne.
  assert (Hw : forall k, 0 <= nth k weights 0).
  { intros k. destruct (Nat.lt_ge_cases k (length weights)); [apply Hn, nth_In; auto|rewrite nth_overflow; auto; lra]. }
  assert (Hs : 0 < sumR weights).
  { change sumR with rsum. destruct (Rle_lt_or_eq_dec _ _ (rsum_nonneg weights Hn)) as [H|H]; auto.
    exfalso. apply Hi. symmetry.
    apply (rsum_eq_all _ (fun _ => 0) (fun x => x) weights); auto.
    - rewrite rsum_const, map_id. lra.
    - apply nth_In. lia. }
  destruct (C54_effective_samples weights Hn Hs) as (n & Hneff & Hent & Hlo & _ & Hone & _).
  assert (Hn1 : 1 < n).
  { destruct Hlo as [[H|H] _]; auto. exfalso. symmetry in H. apply Hone in H.
    pose proof (two_nonzero weights i j ltac:(lia) Hi Hj). lia. }
  assert (Hv : 0 < w_var samples weights).
  { destruct (Req_EM_T (nth i samples 0) (w_mean samples weights)) as [He|He].
    - apply (average_pos_term _ _ _ j); auto; try lia.
      + intros; apply pow2_ge_0.
      + pose proof (Hw j). lra.
      + assert (nth j samples 0 - w_mean samples weights <> 0) by lra.
        pose proof (pow2_ge_0 (nth j samples 0 - w_mean samples weights)).
        destruct (Rle_lt_or_eq_dec _ _ H0) as [H2|H2]; auto. symmetry in H2.
        exfalso. apply H. apply Rsqr_0_uniq. unfold Rsqr. lra.
    - apply (average_pos_term _ _ _ i); auto; try lia.
      + intros; apply pow2_ge_0.
      + pose proof (Hw i). lra.
      + assert (nth i samples 0 - w_mean samples weights <> 0) by lra.
        pose proof (pow2_ge_0 (nth i samples 0 - w_mean samples weights)).
        destruct (Rle_lt_or_eq_dec _ _ H0) as [H2|H2]; auto. symmetry in H2.
        exfalso. apply H. apply Rsqr_0_uniq. unfold Rsqr. lra. }
  assert (Hsig : 0 < bandwidth samples weights n).
  { unfold bandwidth. apply Rmult_lt_0_compat; [|unfold Rpower; apply exp_pos]. apply sqrt_lt_R0.
    apply Rmult_lt_0_compat; auto. apply Rdiv_lt_0_compat; lra. }
  exists n, (bandwidth samples weights n). repeat (split; [assumption || reflexivity|]). split.
  - unfold weighted_1d_gaussian_kde. rewrite Hl, Nat.eqb_refl. cbn [assertb rbind]. rewrite Hneff.
    destruct (Req_EM_T n 1); [lra|]. unfold kde_sigma. rewrite mu_average, var_average by auto.
    fold (bandwidth samples weights n). destruct (Req_EM_T (bandwidth samples weights n) 0); [lra|].
    f_equal. apply map_ext. intros x. rewrite kde_average by auto. rewrite Hl. auto.
  - intros x. apply (average_pos_term _ _ _ i); auto; try lia.
    + intros k _. left. apply gauss_pos; auto.
    + pose proof (Hw i). lra.
    + apply gauss_pos; auto.
Qed.

(** Equal weights: the same as scipy.stats.gaussian_kde, whose covariance is
    the unbiased variance times the square of n^(-1/5). *)
Theorem C54_equal_weights : forall xs samples c i j,
    0 < c -> (i < j < length samples)%nat -> nth i samples 0 <> nth j samples 0 ->
    let n := INR (length samples) in
    weighted_1d_gaussian_kde xs samples (map (fun _ => c) samples) =
    Ok (map (fun x => Some (mean (map (fun s => gauss s (sqrt (variance samples * Rpower n (-1 / 5) ^ 2)) x) samples))) xs).
Proof.
  intros xs samples c i j Hc Hij Hne n. set (w := map (fun _ => c) samples).
  assert (Hlw : length samples = length w) by (unfold w; rewrite map_length; auto).
  assert (Hwk : forall k, (k < length samples)%nat -> nth k w 0 = c).
  { intros k Hk. unfold w. rewrite (nth_indep _ 0 c) by (rewrite map_length; auto).
    apply (map_nth (fun _ => c) samples 0 k). }
  assert (Hpos : filter nonzero w = w).
  { unfold w. clear -Hc. induction samples as [|s t IH]; auto. cbn [map filter].
    rewrite (proj2 (nonzero_true c)) by lra. rewrite IH. auto. }
  assert (Hn0 : forall a, In a w -> 0 <= a) by (intros a Ha; apply in_map_iff in Ha as (s & <- & _); lra).
  destruct (C54_kde xs samples w i j) as (n' & sig & Hent & Hn1 & Hs & Hsig & Hk & _); auto;
    try (rewrite Hwk by lia; lra).
  assert (Hsum : 0 < sumR w).
  { change sumR with rsum. apply rsum_pos; [destruct samples; [cbn in Hij; lia|discriminate]|].
    intros a Ha; apply in_map_iff in Ha as (s & <- & _); lra. }
  destruct (C54_effective_samples w Hn0 Hsum) as (n2 & _ & Hent2 & _ & _ & _ & Heq).
  rewrite <- Hent in Hent2. subst n2. rewrite Hpos in Heq.
  assert (Hnn : n' = n).
  { unfold n. rewrite Hlw. apply Heq. intros a b Ha Hb. apply in_map_iff in Ha as (s & <- & _).
    apply in_map_iff in Hb as (s' & <- & _). auto. }
  assert (Hav : forall f : R -> R, average (length samples) (fun k => nth k w 0) (fun k => f (nth k samples 0))
                         = mean (map f samples)).
  { intros f. unfold average, mean. rewrite map_length. change sumR with rsum.
    rewrite (rsum_ext_in _ (fun k => nth k w 0 * f (nth k samples 0)) (fun k => c * f (nth k samples 0)))
      by (intros k Hkk; apply in_seq in Hkk; rewrite Hwk by lia; auto).
    rewrite (rsum_ext_in _ (fun k => nth k w 0) (fun k => c)) by (intros k Hkk; apply in_seq in Hkk; rewrite Hwk by lia; auto).
    rewrite rsum_const, seq_length. rewrite (rsum_scale _ (fun k => f (nth k samples 0))).
    assert (Hm : rsum (map (fun k => f (nth k samples 0)) (seq 0 (length samples))) = rsum (map f samples)).
    { clear. induction samples as [|s t IH]; auto. cbn [length seq map nth]. rewrite !rsum_cons, <- IH, <- seq_shift, map_map. auto. }
    rewrite Hm. assert (0 < INR (length samples)) by (apply lt_0_INR; lia). field. lra. }
  assert (Hn2 : 1 < n) by (rewrite <- Hnn; auto).
  assert (Hsg : sig = sqrt (variance samples * Rpower n (-1 / 5) ^ 2)).
  { rewrite Hsig, Hnn. unfold bandwidth.
    assert (Hmean : w_mean samples w = mean samples) by (unfold w_mean; rewrite (Hav (fun x => x)), map_id; auto).
    assert (Hvar : w_var samples w * (n / (n - 1)) = variance samples).
    { unfold w_var. rewrite Hmean, (Hav (fun s => (s - mean samples) ^ 2)). unfold mean at 1, variance.
      rewrite map_length. fold n. field. lra. }
    rewrite Hvar. assert (Hp : 0 < Rpower n (-1 / 5)) by (unfold Rpower; apply exp_pos).
    rewrite sqrt_mult_alt.
    - rewrite sqrt_pow2 by lra. auto.
    - unfold variance. apply Rmult_le_pos; [|left; apply Rinv_0_lt_compat; fold n; lra].
      change sumR with rsum. apply rsum_nonneg. intros x Hx. apply in_map_iff in Hx as (s & <- & _). apply pow2_ge_0. }
  rewrite Hk, <- Hsg. f_equal. apply map_ext. intros x. rewrite (Hav (fun s => gauss s sig x)). auto.
Qed.

(** ** Invariances *)
Lemma rsum_mult : forall k w, rsum (map (Rmult k) w) = k * rsum w.
Proof. intros. rewrite <- (map_id w) at 2. apply (rsum_scale _ (fun x => x) k w). Qed.
Lemma normalised_scale : forall k w, k <> 0 -> normalised (map (Rmult k) w) = normalised w.
Proof.
  intros k w Hk. unfold normalised. rewrite map_map. apply map_ext. intros a.
  rewrite rsum_mult.
  destruct (Req_EM_T (rsum w) 0) as [He|He].
  - rewrite He, Rmult_0_r. unfold Rdiv. rewrite Rinv_0. lra.
  - field. auto.
Qed.
Lemma neff_scale : forall k w, k <> 0 -> nsamp_eff (map (Rmult k) w) = nsamp_eff w.
Proof.
  intros k w Hk. unfold nsamp_eff. rewrite normalised_scale by auto.
  rewrite rsum_mult.
  destruct (Req_EM_T (k * rsum w) 0) as [He|He], (Req_EM_T (rsum w) 0) as [He'|He']; auto.
  - exfalso. apply He'. apply (Rmult_eq_reg_l k); lra.
  - exfalso. apply He. rewrite He'. lra.
Qed.

Theorem C54_weight_scale : forall xs samples weights k, k <> 0 ->
    weighted_1d_gaussian_kde xs samples (map (Rmult k) weights) = weighted_1d_gaussian_kde xs samples weights.
Proof.
  intros. unfold weighted_1d_gaussian_kde. rewrite map_length, neff_scale, normalised_scale by auto. reflexivity.
Qed.

Lemma map2_zero : forall A B (f : A -> B -> R) a1 a2 x b1 b2 y, length a1 = length b1 -> f x y = 0 ->
    rsum (map2 f (a1 ++ x :: a2) (b1 ++ y :: b2)) = rsum (map2 f (a1 ++ a2) (b1 ++ b2)).
Proof.
  induction a1 as [|z a1 IH]; intros a2 x [|v b1] b2 y H Hf; cbn [length] in H; try discriminate.
  - unfold map2. cbn [app combine map fst snd]. rewrite rsum_cons, Hf. lra.
  - unfold map2 in *. cbn [app combine map fst snd]. rewrite !rsum_cons, IH by (auto; lia). auto.
Qed.

(** Samples of zero weight have no effect, if there are others. *)
Theorem C54_zero_weight : forall xs s1 s s2 w1 w2, length s1 = length w1 -> s1 ++ s2 <> [] ->
    weighted_1d_gaussian_kde xs (s1 ++ s :: s2) (w1 ++ 0 :: w2) = weighted_1d_gaussian_kde xs (s1 ++ s2) (w1 ++ w2).
Proof.
  intros xs s1 s s2 w1 w2 H Hne. unfold weighted_1d_gaussian_kde.
  assert (Hnan : map (fun _ : R => match s1 ++ s :: s2 with [] => Some 0 | _ :: _ => None end) xs =
                 map (fun _ => match s1 ++ s2 with [] => Some 0 | _ :: _ => None end) xs).
  { destruct s1 as [|a s1]; auto. destruct s2 as [|b s2]; auto. cbn in Hne. congruence. }
  rewrite Hnan. clear Hnan.
  replace (length (s1 ++ s :: s2) =? length (w1 ++ 0%R :: w2))%nat with (length (s1 ++ s2) =? length (w1 ++ w2))%nat.
  2: { rewrite !app_length. cbn [length].
       destruct (Nat.eqb_spec (length s1 + length s2) (length w1 + length w2));
         destruct (Nat.eqb_spec (length s1 + S (length s2)) (length w1 + S (length w2))); lia. }
  destruct (length (s1 ++ s2) =? length (w1 ++ w2))%nat; cbn [assertb rbind]; auto.
  assert (Hs : rsum (w1 ++ 0 :: w2) = rsum (w1 ++ w2)) by (rewrite !rsum_app, rsum_cons; lra).
  assert (Hnorm : normalised (w1 ++ 0 :: w2) =
                  map (fun a => a / rsum (w1 ++ w2)) w1 ++ 0 :: map (fun a => a / rsum (w1 ++ w2)) w2).
  { unfold normalised. rewrite Hs, map_app. cbn [map]. f_equal. f_equal. unfold Rdiv. lra. }
  assert (Hnorm' : normalised (w1 ++ w2) =
                  map (fun a => a / rsum (w1 ++ w2)) w1 ++ map (fun a => a / rsum (w1 ++ w2)) w2).
  { unfold normalised. rewrite map_app. auto. }
  set (n1 := map (fun a => a / rsum (w1 ++ w2)) w1) in *. set (n2 := map (fun a => a / rsum (w1 ++ w2)) w2) in *.
  assert (Hl1 : length n1 = length s1) by (unfold n1; rewrite map_length; auto).
  assert (Hneff : nsamp_eff (w1 ++ 0 :: w2) = nsamp_eff (w1 ++ w2)).
  { unfold nsamp_eff. rewrite Hs, Hnorm, Hnorm'. destruct (Req_EM_T (rsum (w1 ++ w2)) 0); auto.
    replace (filter nonzero (n1 ++ 0 :: n2)) with (filter nonzero (n1 ++ n2)); auto.
    rewrite !filter_app. cbn [filter]. unfold nonzero at 4. destruct (Req_EM_T 0 0); [auto|congruence]. }
  rewrite Hneff. destruct (nsamp_eff (w1 ++ w2)) as [n|]; auto. destruct (Req_EM_T n 1); auto.
  assert (Hsig : kde_sigma (s1 ++ s :: s2) (normalised (w1 ++ 0 :: w2)) n = kde_sigma (s1 ++ s2) (normalised (w1 ++ w2)) n).
  { unfold kde_sigma. rewrite Hnorm, Hnorm', !map2_zero by (auto; lra). auto. }
  rewrite Hsig. destruct (Req_EM_T (kde_sigma (s1 ++ s2) (normalised (w1 ++ w2)) n) 0); auto.
  f_equal. apply map_ext. intros x. unfold kde_at. rewrite Hnorm, Hnorm', map2_zero by (auto; lra). auto.
Qed.

Lemma map2_swap : forall A B C (f : A -> B -> C) a b, map2 f a b = map2 (fun y x => f x y) b a.
Proof. intros A B C f a. unfold map2. induction a as [|x a IH]; intros [|y b]; cbn [combine map]; auto. f_equal. auto. Qed.

(** The order of the samples does not matter. *)
Theorem C54_permutation : forall xs s w s' w', length s = length w -> length s' = length w' ->
    Permutation (combine s w) (combine s' w') ->
    weighted_1d_gaussian_kde xs s w = weighted_1d_gaussian_kde xs s' w'.
Proof.
  intros xs s w s' w' H H' Hp.
  assert (Hsnd : forall (a b : list R), length a = length b -> map snd (combine a b) = b).
  { induction a; intros [|y b] Hl; cbn [length] in Hl; try discriminate; auto. cbn [combine map snd]. f_equal. apply IHa. lia. }
  assert (Hw : Permutation w w').
  { rewrite <- (Hsnd s w), <- (Hsnd s' w') by auto. apply Permutation_map. auto. }
  pose proof (rsum_perm _ _ Hw) as Hs.
  assert (Hn : Permutation (normalised w) (normalised w')) by (unfold normalised; rewrite Hs; apply Permutation_map; auto).
  assert (Hcomb : forall (a b : list R), combine a (normalised b) = map (fun p => (fst p, snd p / rsum b)) (combine a b)).
  { intros a b. unfold normalised. generalize (rsum b) as c. intros c. revert b.
    induction a; intros [|y b]; cbn [map combine fst snd]; auto. f_equal. auto. }
  assert (Hc : Permutation (combine s (normalised w)) (combine s' (normalised w'))).
  { rewrite !Hcomb, Hs. apply Permutation_map. auto. }
  assert (Hneff : nsamp_eff w = nsamp_eff w').
  { unfold nsamp_eff. rewrite Hs. destruct (Req_EM_T (rsum w') 0); auto.
    assert (Hf : Permutation (filter nonzero (normalised w)) (filter nonzero (normalised w'))).
    { clear -Hn. induction Hn; cbn [filter]; auto.
      - destruct (nonzero x); auto.
      - destruct (nonzero x), (nonzero y); auto. apply perm_swap.
      - eapply perm_trans; eauto. }
    assert (He : existsb negative (filter nonzero (normalised w)) = existsb negative (filter nonzero (normalised w'))).
    { clear -Hf. apply Bool.eq_true_iff_eq. rewrite !existsb_exists. split; intros (x & Hx & Hb); exists x; split; auto.
      - eapply Permutation_in; eauto. - eapply Permutation_in; [apply Permutation_sym|]; eauto. }
    rewrite He. rewrite (rsum_perm (map _ _) _ (Permutation_map (fun a => a * ln a) Hf)). auto. }
  assert (Hm : forall f : R -> R -> R, rsum (map2 f s (normalised w)) = rsum (map2 f s' (normalised w'))).
  { intros f. apply rsum_perm. unfold map2. apply Permutation_map. auto. }
  unfold weighted_1d_gaussian_kde. rewrite H, H', !Nat.eqb_refl. cbn [assertb rbind]. rewrite Hneff.
  assert (Hnan : map (fun _ : R => match s with [] => Some 0 | _ :: _ => None end) xs =
                 map (fun _ => match s' with [] => Some 0 | _ :: _ => None end) xs).
  { apply Permutation_length in Hw. destruct s, s'; cbn [length] in *; auto; exfalso; lia. }
  rewrite Hnan. clear Hnan.
  destruct (nsamp_eff w') as [n|]; auto. destruct (Req_EM_T n 1); auto.
  assert (Hsig : kde_sigma s (normalised w) n = kde_sigma s' (normalised w') n).
  { unfold kde_sigma. rewrite !(map2_swap _ _ _ _ (normalised _)), !Hm. auto. }
  rewrite Hsig. destruct (Req_EM_T (kde_sigma s' (normalised w') n) 0); auto.
  f_equal. apply map_ext. intros x. unfold kde_at. rewrite Hm. auto.
Qed.

(** Shift and change of unit of the samples. *)
Theorem C54_affine : forall xs samples weights c d, 0 < d ->
    weighted_1d_gaussian_kde (map (fun x => c + d * x) xs) (map (fun s => c + d * s) samples) weights =
    (let! v := weighted_1d_gaussian_kde xs samples weights in Ok (map (lift1 (fun y => y / d)) v)).
Proof.
  intros xs s w c d Hd. unfold weighted_1d_gaussian_kde. rewrite map_length.
  destruct (Nat.eqb_spec (length s) (length w)) as [Hl|Hl]; cbn [assertb rbind]; auto.
  assert (Hnan : map (fun _ : R => match map (fun s => c + d * s) s with [] => Some 0 | _ :: _ => None end) (map (fun x => c + d * x) xs) =
                 map (lift1 (fun y => y / d)) (map (fun _ => match s with [] => Some 0 | _ :: _ => None end) xs)).
  { rewrite !map_map. apply map_ext. intros x. destruct s; cbn; auto. f_equal. unfold Rdiv. lra. }
  destruct (nsamp_eff w) as [n|] eqn:Hneff; [|cbn [rbind]; rewrite Hnan; auto].
  destruct (Req_EM_T n 1); [cbn [rbind]; rewrite Hnan; auto|].
  assert (Hz : rsum w <> 0) by (unfold nsamp_eff in Hneff; destruct (Req_EM_T (rsum w) 0); [discriminate|auto]).
  pose proof (rsum_normalised w Hz) as H1. set (p := normalised w) in *.
  assert (Hlp : length p = length s) by (unfold p; rewrite normalised_length; auto).
  assert (Hmap : forall (f : R -> R -> R) (a b : list R), map2 f a (map (fun s => c + d * s) b) = map2 (fun x y => f x (c + d * y)) a b).
  { intros f. unfold map2. induction a; intros [|y b]; cbn [map combine fst snd]; auto. f_equal. auto. }
  assert (Hmap' : forall (f : R -> R -> R) (a b : list R), map2 f (map (fun s => c + d * s) a) b = map2 (fun x y => f (c + d * x) y) a b).
  { intros f. unfold map2. induction a; intros [|y b]; cbn [map combine fst snd]; auto. f_equal. auto. }
  assert (Hmu : rsum (map2 (fun x y => x * (c + d * y)) p s) = c + d * rsum (map2 Rmult p s)).
  { clear -H1 Hlp. assert (Hg : forall p s, length p = length s ->
      rsum (map2 (fun x y => x * (c + d * y)) p s) = c * rsum p + d * rsum (map2 Rmult p s)).
    { induction p0 as [|x t IH]; intros [|y u] H; cbn [length] in H; try discriminate; [unfold rsum; cbn; lra|].
      unfold map2 in *. cbn [combine map fst snd]. rewrite !rsum_cons, IH by lia. lra. }
    rewrite Hg, H1 by auto. lra. }
  assert (Hvar : forall m, rsum (map2 (fun x y => x * (c + d * y - (c + d * m)) ^ 2) p s) =
                           d ^ 2 * rsum (map2 (fun x y => x * (y - m) ^ 2) p s)).
  { intros m. unfold map2. rewrite <- (rsum_scale _ (fun q => fst q * (snd q - m) ^ 2)). apply rsum_ext_in. intros q _. ring. }
  assert (Hsig : kde_sigma (map (fun s => c + d * s) s) p n = d * kde_sigma s p n).
  { unfold kde_sigma. rewrite !Hmap, Hmu, Hvar. set (v := rsum _). rewrite Rmult_assoc, sqrt_mult_alt by apply pow2_ge_0.
    rewrite sqrt_pow2 by lra. ring. }
  rewrite Hsig. set (sig := kde_sigma s p n) in *.
  destruct (Req_EM_T (d * sig) 0) as [He|He], (Req_EM_T sig 0) as [He'|He']; cbn [rbind].
  - rewrite Hnan. auto.
  - exfalso. apply He'. apply (Rmult_eq_reg_l d); lra.
  - exfalso. apply He. rewrite He'. lra.
  - f_equal. rewrite !map_map. apply map_ext. intros x. unfold lift1. cbn [option_map]. f_equal. unfold kde_at.
    rewrite Hmap'. unfold map2. rewrite <- (rsum_div _ (fun q => exp (-0.5 * ((x - fst q) / sig) ^ 2) / sqrt (2 * PI * sig ^ 2) * snd q)).
    apply rsum_ext_in. intros q _. replace ((c + d * x - (c + d * fst q)) / (d * sig)) with ((x - fst q) / sig) by (field; lra).
    replace (2 * PI * (d * sig) ^ 2) with (d ^ 2 * (2 * PI * sig ^ 2)) by ring.
    rewrite sqrt_mult_alt, sqrt_pow2 by (try apply pow2_ge_0; lra).
    assert (Hpos : 0 < sqrt (2 * PI * sig ^ 2)).
    { apply sqrt_lt_R0. pose proof PI_RGT_0. apply Rmult_lt_0_compat; [lra|]. pose proof (pow2_ge_0 sig).
      destruct H0; auto. exfalso. apply He'. apply Rsqr_0_uniq. unfold Rsqr. lra. }
    field. lra.
Qed.

(** Without two samples of different values and nonzero weights the result is
    nan, or 0 if there are no samples at all. *)
Theorem C54_undefined : forall xs samples weights, length samples = length weights ->
    (forall a, In a weights -> 0 <= a) ->
    (forall i j, nth i weights 0 <> 0 -> nth j weights 0 <> 0 -> nth i samples 0 = nth j samples 0) ->
    weighted_1d_gaussian_kde xs samples weights = Ok (map (fun _ => match samples with [] => Some 0 | _ :: _ => None end) xs).
Proof.
  intros xs s w Hl Hn He. unfold weighted_1d_gaussian_kde. rewrite Hl, Nat.eqb_refl. cbn [assertb rbind].
  destruct (nsamp_eff w) as [n|] eqn:Hneff; auto. destruct (Req_EM_T n 1); auto.
  assert (Hz : rsum w <> 0) by (unfold nsamp_eff in Hneff; destruct (Req_EM_T (rsum w) 0); [discriminate|auto]).
  assert (Hc : exists c, forall i, nth i w 0 = 0 \/ nth i s 0 = c).
  { assert (Hex : exists i, nth i w 0 <> 0).
    { clear -Hz. induction w as [|a t IH]; [unfold rsum in Hz; cbn in Hz; lra|].
      destruct (Req_EM_T a 0) as [->|Ha]; [|exists 0%nat; auto]. rewrite rsum_cons in Hz. destruct IH as (i & Hi); [lra|]. exists (S i). auto. }
    destruct Hex as (i & Hi). exists (nth i s 0). intros j. destruct (Req_EM_T (nth j w 0) 0) as [E|E]; auto. }
  destruct Hc as (c & Hc).
  assert (HM : forall f : R -> R -> R, (forall y, f 0 y = 0) ->
             rsum (map2 f (normalised w) s) = rsum (map (fun a => f a c) (normalised w))).
  { intros f Hf. assert (Hgo : forall k s, length s = length w -> (forall i, nth i w 0 = 0 \/ nth i s 0 = c) ->
        rsum (map2 f (map (fun a => a / k) w) s) = rsum (map (fun a => f a c) (map (fun a => a / k) w))).
    { clear -Hf. intros k. induction w as [|a t IH]; intros [|y u] Hl Hc; cbn [length] in Hl; try discriminate; auto.
      unfold map2 in *. cbn [map combine fst snd]. rewrite !rsum_cons, IH.
      - destruct (Hc 0%nat) as [E|E]; cbn in E; rewrite E; auto. replace (0 / k) with 0 by (unfold Rdiv; lra). rewrite !Hf. auto.
      - lia.
      - intros i. apply (Hc (S i)). }
    apply Hgo; auto. }
  assert (Hmu : rsum (map2 Rmult (normalised w) s) = c).
  { rewrite HM by (intros; lra). pose proof (rsum_normalised w Hz) as H1.
    assert (Hk : forall l, rsum (map (fun a => a * c) l) = rsum l * c) by (intros l; induction l as [|a t IH]; [unfold rsum; cbn; lra|cbn [map]; rewrite !rsum_cons, IH; lra]).
    rewrite Hk, H1. lra. }
  assert (Hv : rsum (map2 (fun a x => a * (x - rsum (map2 Rmult (normalised w) s)) ^ 2) (normalised w) s) = 0).
  { rewrite Hmu, HM by (intros; lra).
    assert (Hk : forall l, rsum (map (fun a => a * (c - c) ^ 2) l) = 0) by (intros l; induction l as [|a t IH]; [unfold rsum; cbn; lra|cbn [map]; rewrite !rsum_cons, IH; lra]).
    apply Hk. }
  cbv zeta. unfold kde_sigma. rewrite Hv. rewrite Rmult_0_l, sqrt_0, Rmult_0_l. destruct (Req_EM_T 0 0); [auto|congruence].
Qed.

(** Samples and weights must have the same length. *)
Theorem C54_lengths : forall xs samples weights,
    length samples <> length weights <-> weighted_1d_gaussian_kde xs samples weights = Raise AssertionError.
Proof.
  intros. unfold weighted_1d_gaussian_kde. destruct (Nat.eqb_spec (length samples) (length weights)) as [H|H]; cbn [assertb rbind].
  - split; intros H'; [congruence|]. exfalso. destruct (nsamp_eff weights); [|discriminate].
    destruct (Req_EM_T r 1); [discriminate|]. cbv zeta in H'. destruct (Req_EM_T _ 0) in H'; discriminate.
  - split; auto.
Qed.

Example C54_example : exists n sig, n = exp (entropy (map (fun a => a / sumR [1; 3; 0]) [1; 3; 0])) /\ 1 < n /\ 0 < sig /\
   weighted_1d_gaussian_kde [0; 7] [5; 6; 8] [1; 3; 0] =
     Ok (map (fun x => Some (average 3 (fun k => nth k [1; 3; 0] 0) (fun k => gauss (nth k [5; 6; 8] 0) sig x))) [0; 7]).
Proof.
  destruct (C54_kde [0; 7] [5; 6; 8] [1; 3; 0] 0 1) as (n & sig & H1 & H2 & H3 & _ & H4 & _);
    try (cbn; lra); try (cbn; lia); [|eauto 7].
  intros a [<-|[<-|[<-|[]]]]; lra.
Qed.

Example C54_undefined_example : (forall xs, weighted_1d_gaussian_kde xs [5; 6; 5] [1; 0; 2] = Ok (map (fun _ => None) xs)) /\
  forall xs, weighted_1d_gaussian_kde xs [] [] = Ok (map (fun _ => Some 0) xs).
Proof.
  split; intros xs; [apply (C54_undefined xs [5; 6; 5] [1; 0; 2])|apply (C54_undefined xs [] [])]; auto.
  - intros a [<-|[<-|[<-|[]]]]; lra.
  - intros [|[|[|i]]] [|[|[|j]]]; cbn; try lra; try (destruct i; cbn; lra); destruct j; cbn; lra.
  - intros a [].
  - intros [|i] j; cbn; lra.
Qed.

Print Assumptions C54_effective_samples.
Print Assumptions C54_kde.
Print Assumptions C54_equal_weights.
Print Assumptions C54_weight_scale.
Print Assumptions C54_zero_weight.
Print Assumptions C54_permutation.
Print Assumptions C54_affine.
Print Assumptions C54_lengths.
Print Assumptions C54_undefined.
