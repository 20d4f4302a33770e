(** Bounds on rounding errors. *)
From Coq Require Import Lra.
From Verif Require Import Base ModelRun ModelReal ModelRound ProofBase SpecReal ProofReal ProofLimit.
Local Open Scope R_scope.

Section Bounds.
Context (u : R) (A : arith) (Hu : 0 <= u) (HA : relative u A).

(** ** Sums *)
Definition off (k : nat) (a x y : R) : Prop := Rabs (y - x) <= ((1 + u) ^ k - 1) * a.
Lemma off_weaken : forall k m a x y, (k <= m)%nat -> 0 <= a -> off k a x y -> off m a x y.
Proof.
  intros k m a x y Hk Ha H. unfold off in *. eapply Rle_trans; [exact H|].
  apply Rmult_le_compat_r; auto. apply pow_grow; auto.
Qed.
Lemma off_refl : forall a x, 0 <= a -> off 0 a x x.
Proof. intros a x Ha. unfold off. replace (x - x) with 0 by lra. rewrite Rabs_R0. simpl. lra. Qed.
Lemma off_step : forall k a x y z, Rabs x <= a -> off k a x y -> Rabs (z - y) <= u * Rabs y -> off (S k) a x z.
Proof.
  intros k a x y z Hx H Hz. unfold off in *. cbn [pow]. pose proof (pow_ge1 u k Hu) as Hk.
  set (g := (1 + u) ^ k) in *.
  assert (Hy : Rabs y <= a + (g - 1) * a).
  { replace y with (x + (y - x)) by lra. eapply Rle_trans; [apply Rabs_triang|]. lra. }
  replace (z - x) with ((z - y) + (y - x)) by lra. eapply Rle_trans; [apply Rabs_triang|].
  assert (u * Rabs y <= u * (a + (g - 1) * a)) by (apply Rmult_le_compat_l; auto). lra.
Qed.
Lemma off_rnd : forall k a x y, Rabs x <= a -> off k a x y -> off (S k) a x (rnd A y).
Proof. intros k a x y Hx H. apply (off_step k a x y); auto. apply (r_rnd u A HA). Qed.
Lemma off_add : forall k a b x y p q, off k a x p -> off k b y q -> off k (a + b) (x + y) (p + q).
Proof.
  intros k a b x y p q H1 H2. unfold off in *. replace (p + q - (x + y)) with ((p - x) + (q - y)) by lra.
  eapply Rle_trans; [apply Rabs_triang|]. lra.
Qed.

Lemma tree_off : forall t, off (length (leaves t) - 1) (abs_sum (leaves t)) (rsum (leaves t)) (add_up (rnd A) t).
Proof.
  induction t as [x|a IHa b IHb]; cbn [add_up leaves].
  - cbn [length Nat.sub]. unfold abs_sum. cbn [map]. rewrite !rsum_cons. cbn [rsum fold_right].
    rewrite !Rplus_0_r. apply off_refl. apply Rabs_pos.
  - pose proof (leaves_length a) as La. pose proof (leaves_length b) as Lb. rewrite app_length.
    assert (Es : abs_sum (leaves a ++ leaves b) = abs_sum (leaves a) + abs_sum (leaves b)).
    { unfold abs_sum. rewrite map_app. apply rsum_app. }
    replace (length (leaves a) + length (leaves b) - 1)%nat
      with (S (length (leaves a) + length (leaves b) - 2)) by lia.
    apply off_rnd; [apply abs_rsum|]. rewrite Es, rsum_app. apply off_add.
    + eapply off_weaken; [|apply abs_sum_nonneg|exact IHa]. lia.
    + eapply off_weaken; [|apply abs_sum_nonneg|exact IHb]. lia.
Qed.
Lemma sum_off : forall l, off (length l - 1) (abs_sum l) (rsum l) (fsum A l).
Proof.
  intros [|x l].
  - rewrite (r_sum_nil u A HA). cbn. apply off_refl. lra.
  - destruct (r_sum u A HA (x :: l)) as (t & Hp & ->); [discriminate|].
    pose proof (tree_off t) as H. rewrite (Permutation_length Hp), (rsum_perm _ _ Hp) in H.
    unfold abs_sum in *. rewrite (rsum_perm _ _ (Permutation_map Rabs Hp)) in H. auto.
Qed.
Lemma abs_sum_same : forall l, (forall x, In x l -> 0 <= x) -> abs_sum l = rsum l.
Proof.
  intros l H. unfold abs_sum. f_equal. rewrite <- map_id. apply map_ext_in. intros x Hx. apply Rabs_pos_eq; auto.
Qed.

(** Terms which are themselves off. *)
Lemma terms_off : forall k xs ys, Forall2 (fun x y => off k (Rabs x) x y) xs ys ->
    off k (abs_sum xs) (rsum xs) (rsum ys).
Proof.
  intros k xs ys H. induction H as [|x y xs ys Hx H IH].
  - unfold abs_sum. cbn. unfold off. replace (0 - 0) with 0 by lra. rewrite Rabs_R0. lra.
  - unfold abs_sum in *. cbn [map]. rewrite !rsum_cons. apply off_add; auto.
Qed.
Lemma terms_abs : forall k xs ys, Forall2 (fun x y => off k (Rabs x) x y) xs ys ->
    abs_sum ys <= (1 + u) ^ k * abs_sum xs.
Proof.
  intros k xs ys H. induction H as [|x y xs ys Hx H IH].
  - unfold abs_sum. cbn. lra.
  - unfold abs_sum in *. cbn [map]. rewrite !rsum_cons. unfold off in Hx.
    assert (Hy : Rabs y <= Rabs x + Rabs (y - x)).
    { replace y with (x + (y - x)) at 1 by lra. apply Rabs_triang. }
    lra.
Qed.
Lemma sum_terms_off : forall k xs ys, Forall2 (fun x y => off k (Rabs x) x y) xs ys ->
    off (k + (length xs - 1)) (abs_sum xs) (rsum xs) (fsum A ys).
Proof.
  intros k xs ys H. pose proof (sum_off ys) as H1. pose proof (terms_off k xs ys H) as H2.
  pose proof (terms_abs k xs ys H) as H3. assert (HL : length ys = length xs) by (symmetry; eapply Forall2_len; eauto).
  rewrite HL in H1. unfold off in *.
  replace (fsum A ys - rsum xs) with ((fsum A ys - rsum ys) + (rsum ys - rsum xs)) by lra.
  eapply Rle_trans; [apply Rabs_triang|]. rewrite pow_add. pose proof (pow_ge1 u (length xs - 1) Hu) as Hg.
  assert (((1 + u) ^ (length xs - 1) - 1) * abs_sum ys <= ((1 + u) ^ (length xs - 1) - 1) * ((1 + u) ^ k * abs_sum xs))
    by (apply Rmult_le_compat_l; auto).
  lra.
Qed.

(** ** Log-volumes *)
Lemma cumsum_from_off : forall ts hs s h k, (forall t, In t ts -> t <= 0) ->
    Forall2 (fun t y => off 2 (Rabs t) t y) ts hs -> s <= 0 -> off k (Rabs s) s h -> (2 <= k)%nat ->
    exists ys, xcumsum_from A (XNum h) (map XNum hs) = map XNum ys /\ length ys = length ts /\
      forall i, (i < length ts)%nat ->
        off (k + 1 + i) (Rabs (nth i (cumsum_from s ts) 0)) (nth i (cumsum_from s ts) 0) (nth i ys 0).
Proof.
  intros ts hs s h k Hneg HF. revert s h k. induction HF as [|t y ts hs Ht HF IH]; intros s h k Hs Hsh Hk.
  - exists []. split; auto. split; auto. cbn. intros; lia.
  - assert (Ht0 : t <= 0) by (apply Hneg; left; auto).
    assert (Hoff : off (k + 1) (Rabs (s + t)) (s + t) (rnd A (h + y))).
    { replace (k + 1)%nat with (S k) by lia. apply off_rnd; [lra|].
      replace (Rabs (s + t)) with (Rabs s + Rabs t) by (rewrite !Rabs_left1; lra).
      apply off_add; auto. eapply off_weaken; [|apply Rabs_pos|exact Ht]. auto. }
    destruct (IH ltac:(intros; apply Hneg; right; auto) (s + t) (rnd A (h + y)) (k + 1)%nat) as (ys & E & L & HY);
      [lra|auto|lia|].
    exists (rnd A (h + y) :: ys). cbn [map xcumsum_from xadd length cumsum_from]. rewrite E. split; auto.
    split; [lia|]. intros [|i] Hi; cbn [nth].
    + replace (k + 1 + 0)%nat with (k + 1)%nat by lia. auto.
    + replace (k + 1 + S i)%nat with (k + 1 + 1 + i)%nat by lia. apply HY. lia.
Qed.
Lemma cumsum_off : forall ts hs, (forall t, In t ts -> t <= 0) ->
    Forall2 (fun t y => off 2 (Rabs t) t y) ts hs ->
    exists ys, xcumsum A (map XNum hs) = map XNum ys /\ length ys = length ts /\
      forall i, (i < length ts)%nat ->
        off (i + 2) (Rabs (nth i (cumsum ts) 0)) (nth i (cumsum ts) 0) (nth i ys 0).
Proof.
  intros ts hs Hneg HF. destruct HF as [|t y ts hs Ht HF].
  - exists []. split; auto. split; auto. cbn. intros; lia.
  - cbn [map xcumsum]. unfold cumsum. cbn [cumsum_from]. rewrite Rplus_0_l.
    destruct (cumsum_from_off ts hs t y 2) as (ys & E & L & HY); auto.
    + intros; apply Hneg; right; auto.
    + apply Hneg. left; auto.
    + exists (y :: ys). cbn [map length]. rewrite E. split; auto. split; [lia|].
      intros [|i] Hi; cbn [nth]; [auto|]. replace (S i + 2)%nat with (2 + 1 + i)%nat by lia. apply HY. cbn [length] in Hi. lia.
Qed.

Lemma step_sim_off : forall v n, 0 < v < 1 -> (0 < n)%Z -> rnd A (IZR n) = IZR n ->
    exists y, xdiv A (xlog A (XNum v)) (XNum (rnd A (IZR n))) = XNum y /\ off 2 (Rabs (ln v / IZR n)) (ln v / IZR n) y.
Proof.
  intros v n Hv Hn Hr. apply IZR_lt in Hn. cbn [xlog]. destruct (Rlt_dec 0 v); [|lra]. rewrite Hr.
  cbn [xdiv]. destruct (Req_EM_T (IZR n) 0); [lra|]. eexists. split; [reflexivity|].
  apply off_rnd; [lra|]. unfold off. replace (flog A v / IZR n - ln v / IZR n) with ((flog A v - ln v) / IZR n) by (field; lra).
  unfold Rdiv. rewrite !Rabs_mult. pose proof (r_log u A HA v (proj1 Hv)) as Hl.
  pose proof (Rabs_pos (/ IZR n)) as Hp. cbn [pow]. replace ((1 + u) * 1 - 1) with u by lra. nra.
Qed.
Lemma step_mean_off : forall n, (0 < n)%Z -> rnd A (IZR n) = IZR n ->
    exists y, xmul A (XNum (-1)) (xdiv A (XNum 1) (XNum (rnd A (IZR n)))) = XNum y /\
      off 2 (Rabs (-1 * / IZR n)) (-1 * / IZR n) y.
Proof.
  intros n Hn Hr. apply IZR_lt in Hn. rewrite Hr. cbn [xdiv]. destruct (Req_EM_T (IZR n) 0); [lra|].
  cbn [xmul]. eexists. split; [reflexivity|]. apply off_rnd; [lra|].
  assert (H : off 1 (Rabs (1 / IZR n)) (1 / IZR n) (rnd A (1 / IZR n))).
  { apply off_rnd; [lra|]. apply off_refl, Rabs_pos. }
  unfold off in *. replace (-1 * rnd A (1 / IZR n) - -1 * / IZR n) with (-1 * (rnd A (1 / IZR n) - 1 / IZR n)) by (field; lra).
  replace (-1 * / IZR n) with (-1 * (1 / IZR n)) by (field; lra).
  rewrite !(Rabs_mult (-1)). replace (Rabs (-1)) with 1 by (rewrite Rabs_left; lra). lra.
Qed.
Lemma steps_off : forall nlive sim, draws_ok sim (length nlive) -> (forall n, In n nlive -> (0 < n)%Z) ->
    (forall n, In n nlive -> rnd A (IZR n) = IZR n) ->
    exists hs, match sim with
               | Some us => map2 (fun u n => xdiv A (xlog A (XNum u)) (XNum (rnd A (IZR n)))) us nlive
               | None => map (fun n => xmul A (XNum (-1)) (xdiv A (XNum 1) (XNum (rnd A (IZR n))))) nlive
               end = map XNum hs /\ Forall2 (fun t y => off 2 (Rabs t) t y) (logx_steps nlive sim) hs.
Proof.
  intros nlive [us|] Hd Hn Hr; cbn [logx_steps].
  - destruct Hd as [Hl Hd]. revert us Hl Hd. induction nlive as [|n t IH]; intros [|v us] Hl Hd; cbn in Hl; try lia.
    + exists []. split; [auto|constructor].
    + destruct (IH ltac:(intros; apply Hn; right; auto) ltac:(intros; apply Hr; right; auto) us) as (hs & E & HF);
        [lia|intros; apply Hd; right; auto|].
      destruct (step_sim_off v n) as (y & Ey & Hy); [apply Hd|apply Hn|apply Hr|]; try (left; auto; fail).
      exists (y :: hs). unfold map2 in *. cbn [combine map fst snd]. rewrite E, Ey. split; [auto|constructor; auto].
  - clear Hd. induction nlive as [|n t IH].
    + exists []. split; auto. constructor.
    + destruct (IH ltac:(intros; apply Hn; right; auto) ltac:(intros; apply Hr; right; auto)) as (hs & E & HF).
      destruct (step_mean_off n) as (y & Ey & Hy); [apply Hn|apply Hr|]; try (left; auto; fail).
      exists (y :: hs). cbn [map]. rewrite E, Ey. auto.
Qed.
Lemma logx_off : forall nlive sim logx, draws_ok sim (length nlive) ->
    (forall n, In n nlive -> rnd A (IZR n) = IZR n) -> get_logx nlive sim = Ok logx ->
    exists ys, x_logx A nlive sim = Ok (map XNum ys) /\ length ys = length logx /\
      forall i, (i < length logx)%nat -> off (i + 2) (Rabs (nth i logx 0)) (nth i logx 0) (nth i ys 0).
Proof.
  intros nlive sim logx Hd Hr H. apply get_logx_ok in H as (Hne & Hp & ->).
  destruct (steps_off nlive sim Hd Hp Hr) as (hs & E & HF).
  destruct (cumsum_off _ hs (fun t Ht => Rlt_le _ _ (logx_steps_neg nlive sim Hd Hp t Ht)) HF) as (ys & E2 & L & HY).
  exists ys. rewrite cumsum_length. split; [|auto]. unfold x_logx. rewrite E, E2.
  destruct nlive as [|n0 t]; [congruence|]. rewrite (proj2 (min_list_pos (n0 :: t) Hne) Hp). auto.
Qed.

(** ** Relative weights *)
Lemma xmax_numbers : forall l, l <> [] -> xmax (map XNum l) = XNum (rmax l).
Proof.
  intros [|x l] H; [congruence|]. cbn [map xmax rmax]. clear H. induction l as [|y t IH]; auto.
  cbn [map fold_right]. rewrite IH. reflexivity.
Qed.
Lemma exp_off : forall t, Rabs (exp t - 1) <= exp (Rabs t) - 1.
Proof.
  intros t. unfold Rabs at 2. destruct (Rcase_abs t) as [Ht|Ht].
  - assert (exp t < 1) by (rewrite <- exp_0; apply exp_increasing; auto).
    assert (1 < exp (- t)) by (rewrite <- exp_0; apply exp_increasing; lra).
    assert (He : exp t * exp (- t) = 1) by (rewrite <- exp_plus, <- exp_0; f_equal; lra).
    pose proof (exp_pos t). rewrite Rabs_left by lra. nra.
  - assert (1 <= exp t) by (rewrite <- exp_0; destruct (Req_dec t 0) as [->|]; [lra|left; apply exp_increasing; lra]).
    rewrite Rabs_right by lra. lra.
Qed.
Lemma exp_le : forall x y, x <= y -> exp x <= exp y.
Proof. intros x y [H| ->]; [left; apply exp_increasing; auto|lra]. Qed.
Lemma abs_le : forall x a, Rabs x <= a -> - a <= x <= a.
Proof. intros x a H. unfold Rabs in H. destruct (Rcase_abs x); lra. Qed.
Lemma weight_off : forall d, d <= 0 ->
    let w := fexp A (rnd A d) in
    Rabs (w - exp d) <= ((1 + u) * exp (u * - d) - 1) * exp d /\
    (u < 1 -> (1 - u) * exp (- (u * - d)) * exp d <= w <= (1 + u) * exp (u * - d) * exp d).
Proof.
  intros d Hd w. pose proof (r_rnd u A HA d) as Hr. pose proof (r_exp u A HA (rnd A d)) as He. fold w in He.
  rewrite (Rabs_left1 d) in Hr by auto.
  set (t := rnd A d - d) in *. replace (rnd A d) with (d + t) in He by (unfold t; lra). rewrite exp_plus in He.
  assert (Ht : exp (Rabs t) <= exp (u * - d)) by (apply exp_le; auto).
  assert (Ht2 : exp t <= exp (u * - d)) by (eapply Rle_trans; [|exact Ht]; apply exp_le, Rle_abs).
  assert (Ht3 : exp (- (u * - d)) <= exp t).
  { apply exp_le. pose proof (Rle_abs (- t)) as Hn. rewrite Rabs_Ropp in Hn. lra. }
  pose proof (exp_off t) as Ho. pose proof (exp_pos d) as P. pose proof (exp_pos t) as Pt.
  pose proof (exp_pos (- (u * - d))) as Pn.
  set (G := exp (u * - d)) in *. set (Ed := exp d) in *. set (Et := exp t) in *. split.
  - replace (w - Ed) with ((w - Ed * Et) + Ed * (Et - 1)) by lra. eapply Rle_trans; [apply Rabs_triang|].
    rewrite Rabs_mult, (Rabs_pos_eq Ed) by lra.
    assert (Ed * Rabs (Et - 1) <= Ed * (G - 1)) by (apply Rmult_le_compat_l; lra).
    assert (u * (Ed * Et) <= u * (Ed * G)) by (apply Rmult_le_compat_l; auto; apply Rmult_le_compat_l; lra).
    lra.
  - intros Hu1. apply abs_le in He. split.
    + assert ((1 - u) * exp (- (u * - d)) * Ed <= (1 - u) * Et * Ed).
      { apply Rmult_le_compat_r; [lra|]. apply Rmult_le_compat_l; lra. }
      lra.
    + assert ((1 + u) * Et * Ed <= (1 + u) * G * Ed).
      { apply Rmult_le_compat_r; [lra|]. apply Rmult_le_compat_l; lra. }
      lra.
Qed.
(** ** Sums of positive numbers *)
Lemma pow_shrink : forall n m, u <= 1 -> (n <= m)%nat -> (1 - u) ^ m <= (1 - u) ^ n.
Proof.
  intros n m H1 H. replace m with (n + (m - n))%nat by lia. rewrite pow_add.
  assert (0 <= (1 - u) ^ n) by (apply pow_le; lra).
  assert (H2 : forall k, 0 <= (1 - u) ^ k <= 1).
  { induction k as [|k IH]; cbn [pow]; [lra|]. split; [apply Rmult_le_pos; lra|]. nra. }
  specialize (H2 (m - n)%nat). nra.
Qed.
Lemma tree_low : forall t, u <= 1 -> (forall x, In x (leaves t) -> 0 <= x) ->
    (1 - u) ^ (length (leaves t) - 1) * rsum (leaves t) <= add_up (rnd A) t /\ 0 <= add_up (rnd A) t.
Proof.
  intros t H1. induction t as [x|a IHa b IHb]; cbn [add_up leaves]; intros Hp.
  - cbn [length Nat.sub]. rewrite rsum_cons. cbn [rsum fold_right pow]. specialize (Hp x (or_introl eq_refl)). lra.
  - pose proof (leaves_length a) as La. pose proof (leaves_length b) as Lb. rewrite app_length, rsum_app.
    destruct IHa as [A1 A2]; [intros; apply Hp, in_app_iff; auto|].
    destruct IHb as [B1 B2]; [intros; apply Hp, in_app_iff; auto|].
    assert (Pa : 0 <= rsum (leaves a)) by (apply rsum_nonneg; intros; apply Hp, in_app_iff; auto).
    assert (Pb : 0 <= rsum (leaves b)) by (apply rsum_nonneg; intros; apply Hp, in_app_iff; auto).
    set (k := (length (leaves a) + length (leaves b) - 2)%nat).
    replace (length (leaves a) + length (leaves b) - 1)%nat with (S k) by lia. cbn [pow].
    pose proof (pow_shrink (length (leaves a) - 1) k H1 ltac:(lia)) as Ka.
    pose proof (pow_shrink (length (leaves b) - 1) k H1 ltac:(lia)) as Kb.
    assert (Kp : 0 <= (1 - u) ^ k) by (apply pow_le; lra).
    assert (Ha : (1 - u) ^ k * rsum (leaves a) <= add_up (rnd A) a)
      by (eapply Rle_trans; [apply Rmult_le_compat_r; [auto|exact Ka]|auto]).
    assert (Hb : (1 - u) ^ k * rsum (leaves b) <= add_up (rnd A) b)
      by (eapply Rle_trans; [apply Rmult_le_compat_r; [auto|exact Kb]|auto]).
    pose proof (r_rnd u A HA (add_up (rnd A) a + add_up (rnd A) b)) as Hr.
    rewrite (Rabs_pos_eq (add_up (rnd A) a + add_up (rnd A) b)) in Hr by lra. apply abs_le in Hr.
    set (s := add_up (rnd A) a + add_up (rnd A) b) in *.
    assert (Hs : (1 - u) * ((1 - u) ^ k * (rsum (leaves a) + rsum (leaves b))) <= (1 - u) * s)
      by (apply Rmult_le_compat_l; unfold s; lra).
    assert (0 <= (1 - u) * s) by (apply Rmult_le_pos; unfold s; lra).
    split; lra.
Qed.
Lemma sum_between : forall l, u <= 1 -> (forall x, In x l -> 0 <= x) ->
    (1 - u) ^ (length l - 1) * rsum l <= fsum A l <= (1 + u) ^ (length l - 1) * rsum l.
Proof.
  intros l H1 Hp. split.
  - destruct l as [|x l]; [rewrite (r_sum_nil u A HA); cbn; lra|].
    destruct (r_sum u A HA (x :: l)) as (t & Ht & ->); [discriminate|].
    rewrite <- (Permutation_length Ht), <- (rsum_perm _ _ Ht). apply tree_low; auto.
    intros y Hy. apply Hp. eapply Permutation_in; eauto.
  - pose proof (sum_off l) as H. unfold off in H. rewrite abs_sum_same in H by auto. apply abs_le in H. lra.
Qed.

(** ** Means *)
Lemma products_off : forall ws xs, exists ps, map2 (xmul A) (map XNum ws) (map XNum xs) = map XNum ps /\
    Forall2 (fun x y => off 1 (Rabs x) x y) (map2 Rmult ws xs) ps.
Proof.
  unfold map2. induction ws as [|w ws IH]; intros [|x xs]; cbn [map combine]; try (exists []; split; [auto|constructor]; fail).
  destruct (IH xs) as (ps & E & HF). exists (rnd A (w * x) :: ps). cbn [map fst snd xmul]. rewrite E. split; auto.
  constructor; auto. apply off_rnd; [cbn; lra|]. apply off_refl, Rabs_pos.
Qed.
Lemma div_le : forall a b c, 0 < c -> a <= b -> a / c <= b / c.
Proof. intros a b c Hc H. unfold Rdiv. apply Rmult_le_compat_r; auto. left. apply Rinv_0_lt_compat; auto. Qed.
Lemma mean_off : forall ws xs, u < 1 -> ws <> [] -> (forall w, In w ws -> 0 < w) -> length xs = length ws ->
    exists m, x_wmean A (map XNum ws) (map XNum xs) = XNum m /\
      Rabs (m - wmean ws xs) <=
        ((1 + u) ^ (length ws + 1) / (1 - u) ^ (length ws - 1) - 1) *
        (rsum (map2 (fun w x => w * Rabs x) ws xs) / rsum ws).
Proof.
  intros ws xs H1 Hne Hp Hl. destruct (products_off ws xs) as (ps & E & HF). unfold x_wmean, xsum.
  rewrite E, !numbers_map. cbn [xdiv].
  pose proof (rsum_pos ws Hne Hp) as Hs. set (D := rsum ws) in *.
  destruct (sum_between ws ltac:(lra) (fun w Hw => Rlt_le _ _ (Hp w Hw))) as [D1 D2]. fold D in D1, D2.
  set (Dh := fsum A ws) in *. set (n := length ws) in *.
  assert (Q : 0 < (1 - u) ^ (n - 1)) by (apply pow_lt; lra). set (q := (1 - u) ^ (n - 1)) in *.
  assert (Hqd : 0 < q * D) by (apply Rmult_lt_0_compat; auto).
  destruct (Req_EM_T Dh 0); [lra|]. eexists. split; [reflexivity|].
  assert (Hn : (1 <= n)%nat) by (unfold n; destruct ws; [congruence|cbn; lia]).
  pose proof (sum_terms_off 1 _ _ HF) as HN. rewrite map2_length, Hl, Nat.min_id in HN. fold n in HN.
  replace (1 + (n - 1))%nat with n in HN by lia.
  assert (HT : abs_sum (map2 Rmult ws xs) = rsum (map2 (fun w x => w * Rabs x) ws xs)).
  { unfold abs_sum, map2. rewrite map_map. f_equal. apply map_ext_in. intros [w x] Hin. cbn [fst snd].
    apply in_combine_l in Hin. rewrite Rabs_mult, (Rabs_pos_eq w); auto. left; auto. }
  rewrite HT in HN. assert (HT0 : 0 <= rsum (map2 (fun w x => w * Rabs x) ws xs)) by (rewrite <- HT; apply abs_sum_nonneg).
  assert (HNT : Rabs (rsum (map2 Rmult ws xs)) <= rsum (map2 (fun w x => w * Rabs x) ws xs)) by (rewrite <- HT; apply abs_rsum).
  set (T := rsum (map2 (fun w x => w * Rabs x) ws xs)) in *. unfold wmean. fold D.
  set (N := rsum (map2 Rmult ws xs)) in *. set (Nh := fsum A ps) in *. unfold off in HN.
  pose proof (pow_ge1 u n Hu) as Hg. replace (n + 1)%nat with (S n) by lia. cbn [pow].
  set (g := (1 + u) ^ n) in *.
  assert (HDh : 0 < Dh) by lra. assert (Hi : 0 < / Dh) by (apply Rinv_0_lt_compat; auto).
  assert (Hi2 : / Dh <= / (q * D)) by (apply Rinv_le_contravar; auto).
  (* the relative error of 1 / Dh *)
  assert (HD : Rabs (/ Dh - / D) <= (/ q - 1) * / D).
  { assert (E1 : / Dh - / D = (D - Dh) * / Dh * / D) by (field; lra).
    assert (H2 : 1 <= (1 + u) ^ (n - 1)) by (pose proof (pow_ge1 u (n - 1) Hu); lra).
    assert (HiD : 0 < / D) by (apply Rinv_0_lt_compat; auto).
    rewrite E1, Rabs_mult, (Rabs_pos_eq (/ D)) by lra. apply Rmult_le_compat_r; [lra|].
    assert (H3 : (1 + u) ^ (n - 1) * q <= 1).
    { unfold q. rewrite <- Rpow_mult_distr. replace ((1 + u) * (1 - u)) with (1 - u * u) by lra.
      assert (HH : forall k, 0 <= (1 - u * u) ^ k <= 1).
      { assert (0 <= 1 - u * u <= 1) by nra. induction k as [|k IH]; cbn [pow]; [lra|]. split; [apply Rmult_le_pos; lra|nra]. }
      apply HH. }
    assert (H4 : (D - Dh) * / Dh = D * / Dh - 1) by (field; lra). rewrite H4.
    assert (U1 : D * / Dh <= / q).
    { apply Rmult_le_compat_l with (r := D) in Hi2; [|lra]. replace (D * / (q * D)) with (/ q) in Hi2 by (field; lra). auto. }
    assert (L1 : q <= D * / Dh).
    { apply (Rmult_le_reg_r Dh); auto. replace (D * / Dh * Dh) with D by (field; lra).
      assert (q * Dh <= q * ((1 + u) ^ (n - 1) * D)) by (apply Rmult_le_compat_l; lra).
      assert ((1 + u) ^ (n - 1) * q * D <= 1 * D) by (apply Rmult_le_compat_r; lra). lra. }
    assert (Q1 : q * / q = 1) by (field; lra). assert (Hq1 : q <= 1) by (apply (pow_shrink 0 (n - 1)); [lra|lia]).
    assert (0 < / q) by (apply Rinv_0_lt_compat; auto). apply Rabs_le. nra. }
  assert (HQ : Rabs (Nh / Dh - N / D) <= (g * / q - 1) * (T / D)).
  { replace (Nh / Dh - N / D) with ((Nh - N) * / Dh + N * (/ Dh - / D)) by (unfold Rdiv; ring).
    eapply Rle_trans; [apply Rabs_triang|]. rewrite !Rabs_mult, (Rabs_pos_eq (/ Dh)) by lra.
    assert (H2 : Rabs (Nh - N) * / Dh <= ((g - 1) * T) * / (q * D)).
    { apply Rmult_le_compat; [apply Rabs_pos|lra|auto|auto]. }
    assert (H3 : Rabs N * Rabs (/ Dh - / D) <= T * ((/ q - 1) * / D)).
    { apply Rmult_le_compat; try apply Rabs_pos; auto. }
    replace ((g - 1) * T * / (q * D)) with ((g - 1) * / q * (T / D)) in H2 by (field; lra).
    replace (T * ((/ q - 1) * / D)) with ((/ q - 1) * (T / D)) in H3 by (unfold Rdiv; ring). lra. }
  assert (HTD : Rabs (N / D) <= T / D).
  { unfold Rdiv. rewrite Rabs_mult, (Rabs_pos_eq (/ D)) by (left; apply Rinv_0_lt_compat; auto).
    apply Rmult_le_compat_r; auto. left. apply Rinv_0_lt_compat; auto. }
  pose proof (r_rnd u A HA (Nh / Dh)) as Hr.
  assert (HA1 : Rabs (Nh / Dh) <= g * / q * (T / D)).
  { replace (Nh / Dh) with ((Nh / Dh - N / D) + N / D) by lra. eapply Rle_trans; [apply Rabs_triang|]. lra. }
  replace (rnd A (Nh / Dh) - N / D) with ((rnd A (Nh / Dh) - Nh / Dh) + (Nh / Dh - N / D)) by lra.
  eapply Rle_trans; [apply Rabs_triang|].
  assert (u * Rabs (Nh / Dh) <= u * (g * / q * (T / D))) by (apply Rmult_le_compat_l; auto).
  replace (((1 + u) * g / q - 1) * (T / D)) with (u * (g * / q * (T / D)) + (g * / q - 1) * (T / D)) by (unfold Rdiv; ring).
  lra.
Qed.

(** ** The log-evidence *)
Lemma lse_off : forall lw D, u < 1 -> lw <> [] -> (forall x, In x lw -> rmax lw - x <= D) ->
    let e := u * D + INR (length lw) * - ln (1 - u) in
    exists z, xlse A (map XNum lw) = XNum z /\
      Rabs (z - lse lw) <= (1 + u) * ((1 + u) * e + u * (lse lw - rmax lw)) + u * Rabs (lse lw).
Proof.
  intros lw D H1 Hne HD e. unfold xlse. rewrite xmax_numbers by auto. set (M := rmax lw) in *.
  destruct (rmax_spec lw Hne) as [HM1 HM2]. fold M in HM1, HM2.
  assert (E : map (fun x => xexp A (xsub A x (XNum M))) (map XNum lw) = map XNum (map (fun x => fexp A (rnd A (x - M))) lw)).
  { rewrite !map_map. apply map_ext. intros x. reflexivity. }
  rewrite E. unfold xsum. rewrite numbers_map. set (ws := map (fun x => fexp A (rnd A (x - M))) lw) in *.
  set (s0 := rsum (map (fun x => exp (x - M)) lw)).
  assert (HD0 : 0 <= D) by (specialize (HD M HM1); lra).
  assert (Hlow : (1 - u) * exp (- (u * D)) * s0 <= rsum ws).
  { unfold ws, s0. rewrite <- rsum_scale. apply rsum_le. intros x Hx. specialize (HD x Hx). specialize (HM2 x Hx).
    destruct (weight_off (x - M) ltac:(lra)) as [_ Hw]. destruct (Hw H1) as [Hw1 _]. eapply Rle_trans; [|exact Hw1].
    apply Rmult_le_compat_r; [left; apply exp_pos|]. apply Rmult_le_compat_l; [lra|]. apply exp_le.
    assert (u * - (x - M) <= u * D) by (apply Rmult_le_compat_l; lra). lra. }
  assert (Hhigh : rsum ws <= (1 + u) * exp (u * D) * s0).
  { unfold ws, s0. rewrite <- rsum_scale. apply rsum_le. intros x Hx. specialize (HD x Hx). specialize (HM2 x Hx).
    destruct (weight_off (x - M) ltac:(lra)) as [_ Hw]. destruct (Hw H1) as [_ Hw1]. eapply Rle_trans; [exact Hw1|].
    apply Rmult_le_compat_r; [left; apply exp_pos|]. apply Rmult_le_compat_l; [lra|]. apply exp_le.
    apply Rmult_le_compat_l; lra. }
  assert (Hws : forall w, In w ws -> 0 <= w).
  { intros w Hw. apply in_map_iff in Hw as (x & <- & Hx). specialize (HM2 x Hx).
    destruct (weight_off (x - M) ltac:(lra)) as [_ Hw]. destruct (Hw H1) as [Hw1 _]. eapply Rle_trans; [|exact Hw1].
    apply Rmult_le_pos; [apply Rmult_le_pos; [lra|left; apply exp_pos]|left; apply exp_pos]. }
  destruct (sum_between ws ltac:(lra) Hws) as [F1 F2].
  assert (HLn : length ws = length lw) by (unfold ws; apply map_length). rewrite HLn in F1, F2.
  set (n := length lw) in *. assert (Hn : (1 <= n)%nat) by (unfold n; destruct lw; [congruence|cbn; lia]).
  assert (Hs0 : 1 <= s0).
  { destruct (in_split _ _ HM1) as (a & b & Hab). unfold s0. rewrite Hab, map_app. cbn [map]. rewrite rsum_app, rsum_cons.
    replace (M - M) with 0 by lra. rewrite exp_0.
    assert (0 <= rsum (map (fun x => exp (x - M)) a)) by (apply rsum_nonneg; intros y Hy; apply in_map_iff in Hy as (? & <- & _); left; apply exp_pos).
    assert (0 <= rsum (map (fun x => exp (x - M)) b)) by (apply rsum_nonneg; intros y Hy; apply in_map_iff in Hy as (? & <- & _); left; apply exp_pos).
    lra. }
  assert (P1 : 0 < (1 - u) ^ (n - 1)) by (apply pow_lt; lra).
  assert (P2 : 0 < (1 + u) ^ (n - 1)) by (apply pow_lt; lra).
  pose proof (exp_pos (- (u * D))) as P3. pose proof (exp_pos (u * D)) as P4.
  set (s := fsum A ws) in *.
  assert (B1 : (1 - u) ^ n * exp (- (u * D)) * s0 <= s).
  { replace n with (S (n - 1)) by lia. cbn [pow].
    assert ((1 - u) ^ (n - 1) * ((1 - u) * exp (- (u * D)) * s0) <= (1 - u) ^ (n - 1) * rsum ws) by (apply Rmult_le_compat_l; lra). lra. }
  assert (B2 : s <= (1 + u) ^ n * exp (u * D) * s0).
  { replace n with (S (n - 1)) by lia. cbn [pow].
    assert ((1 + u) ^ (n - 1) * rsum ws <= (1 + u) ^ (n - 1) * ((1 + u) * exp (u * D) * s0)) by (apply Rmult_le_compat_l; lra). lra. }
  assert (Q1 : 0 < (1 - u) ^ n) by (apply pow_lt; lra). assert (Q2 : 0 < (1 + u) ^ n) by (apply pow_lt; lra).
  assert (Hsp : 0 < s) by (eapply Rlt_le_trans; [|exact B1]; apply Rmult_lt_0_compat; [apply Rmult_lt_0_compat; auto|lra]).
  assert (Hlnpow : forall y, 0 < y -> forall k, ln (y ^ k) = INR k * ln y).
  { intros y Hy k. induction k as [|k IH]; [cbn [pow INR]; rewrite ln_1; lra|].
    cbn [pow]. rewrite ln_mult, IH, S_INR by (auto; apply pow_lt; auto). lra. }
  assert (Hln1 : ln (1 + u) <= - ln (1 - u)).
  { rewrite <- ln_Rinv by lra. destruct (Req_dec u 0) as [->|Hu0].
    - replace (1 + 0) with 1 by lra. replace (/ (1 - 0)) with 1 by lra. lra.
    - left. apply ln_increasing; [lra|]. apply (Rmult_lt_reg_r (1 - u)); [lra|]. rewrite Rinv_l by lra. nra. }
  assert (Hlog : Rabs (ln s - ln s0) <= e).
  { assert (L1 : ln ((1 - u) ^ n * exp (- (u * D)) * s0) <= ln s).
    { assert (0 < (1 - u) ^ n * exp (- (u * D)) * s0) by (apply Rmult_lt_0_compat; [apply Rmult_lt_0_compat; auto|lra]).
      destruct B1 as [B1|B1]; [left; apply ln_increasing; auto|rewrite B1; lra]. }
    assert (L2 : ln s <= ln ((1 + u) ^ n * exp (u * D) * s0)).
    { destruct B2 as [B2|B2]; [left; apply ln_increasing; auto|rewrite <- B2; lra]. }
    rewrite !ln_mult, ln_exp, Hlnpow in L1 by (auto; try lra; apply Rmult_lt_0_compat; auto).
    rewrite !ln_mult, ln_exp, Hlnpow in L2 by (auto; try lra; apply Rmult_lt_0_compat; auto).
    assert (INR n * ln (1 + u) <= INR n * - ln (1 - u)) by (apply Rmult_le_compat_l; [apply pos_INR|auto]).
    unfold e. fold n. apply Rabs_le. lra. }
  assert (HS : lse lw = ln s0 + M).
  { unfold lse. replace (rsum (map exp lw)) with (exp M * s0).
    - rewrite ln_mult, ln_exp by (try apply exp_pos; lra). lra.
    - unfold s0. rewrite <- rsum_scale. apply rsum_ext_in. intros x _. rewrite <- exp_plus. f_equal. lra. }
  assert (Hl0 : 0 <= ln s0) by (rewrite <- ln_1; destruct Hs0 as [Hs0|Hs0]; [left; apply ln_increasing; lra|rewrite Hs0; lra]).
  cbn [xlog]. destruct (Rlt_dec 0 s); [|lra]. cbn [xadd]. eexists. split; [reflexivity|].
  pose proof (r_log u A HA s Hsp) as Hr1. pose proof (r_rnd u A HA (flog A s + M)) as Hr2.
  assert (Habs : Rabs (ln s) <= ln s0 + e).
  { replace (ln s) with ((ln s - ln s0) + ln s0) by lra. eapply Rle_trans; [apply Rabs_triang|]. rewrite (Rabs_pos_eq (ln s0)); lra. }
  assert (Hf : Rabs (flog A s - ln s0) <= (1 + u) * e + u * ln s0).
  { replace (flog A s - ln s0) with ((flog A s - ln s) + (ln s - ln s0)) by lra. eapply Rle_trans; [apply Rabs_triang|].
    assert (u * Rabs (ln s) <= u * (ln s0 + e)) by (apply Rmult_le_compat_l; auto). lra. }
  assert (HlM : Rabs (flog A s + M) <= Rabs (lse lw) + Rabs (flog A s - ln s0)).
  { replace (flog A s + M) with (lse lw + (flog A s - ln s0)) by (rewrite HS; lra). apply Rabs_triang. }
  replace (rnd A (flog A s + M) - lse lw) with ((rnd A (flog A s + M) - (flog A s + M)) + (flog A s - ln s0)) by (rewrite HS; lra).
  eapply Rle_trans; [apply Rabs_triang|].
  assert (u * Rabs (flog A s + M) <= u * (Rabs (lse lw) + ((1 + u) * e + u * ln s0))) by (apply Rmult_le_compat_l; lra).
  replace (lse lw - M) with (ln s0) by (rewrite HS; lra). lra.
Qed.
End Bounds.
