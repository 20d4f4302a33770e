(** C91: the prior volumes without simulation are the expected ones. *)
From Verif Require Import Base ModelRun ModelReal SpecReal ProofReal.
From Coq Require Import Lra.
Local Open Scope R_scope.

(** ** Sums over a grid *)

Definition grid (N : nat) : list R := map (fun k => INR k / INR N) (seq 1 N).

Lemma sumR_plus : forall A (f g : A -> R) l, sumR (map (fun x => f x + g x) l) = sumR (map f l) + sumR (map g l).
Proof. induction l as [|x l IH]; cbn; [lra|]. unfold sumR in *. cbn in *. rewrite IH. lra. Qed.
Lemma sumR_mult : forall A (f : A -> R) c l, sumR (map (fun x => c * f x) l) = c * sumR (map f l).
Proof. induction l as [|x l IH]; unfold sumR in *; cbn; [lra|]. rewrite IH. lra. Qed.
Lemma sumR_const : forall A c (l : list A), sumR (map (fun _ => c) l) = INR (length l) * c.
Proof. induction l as [|x l IH]; [cbn; lra|]. cbn [map length]. rewrite S_INR. unfold sumR in *. cbn [fold_right]. rewrite IH. lra. Qed.
Lemma sumR_app' : forall a b, sumR (a ++ b) = sumR a + sumR b.
Proof. induction a as [|x a IH]; intros b; unfold sumR in *; cbn; [lra|]. rewrite IH. lra. Qed.
Lemma sumR_perm' : forall a b, Permutation a b -> sumR a = sumR b.
Proof. intros a b H. induction H; unfold sumR in *; cbn; lra. Qed.

(** For a function with a primitive, the sums are close to the integral. *)
Lemma telescope : forall (F f : R -> R) n,
    (forall k, (1 <= k < S n)%nat -> f (INR (S k)) <= F (INR (S k)) - F (INR k)) ->
    sumR (map (fun k => f (INR k)) (seq 2 n)) <= F (INR (S n)) - F 1.
Proof.
  induction n as [|n IH]; intros H; [cbn; lra|]. rewrite seq_S, map_app, sumR_app'.
  specialize (IH ltac:(intros; apply H; lia)). pose proof (H (S n) ltac:(lia)).
  unfold sumR at 2. cbn [map fold_right]. replace (2 + n)%nat with (S (S n)) by lia. lra.
Qed.
Lemma telescope_low : forall (F f : R -> R) n,
    (forall k, (1 <= k < S n)%nat -> F (INR (S k)) - F (INR k) <= f (INR k)) ->
    F (INR (S n)) - F 1 <= sumR (map (fun k => f (INR k)) (seq 1 n)).
Proof.
  induction n as [|n IH]; intros H; [cbn; lra|]. rewrite seq_S, map_app, sumR_app'.
  specialize (IH ltac:(intros; apply H; lia)). pose proof (H (S n) ltac:(lia)).
  unfold sumR at 2. cbn [map fold_right]. replace (1 + n)%nat with (S n) by lia. lra.
Qed.

Definition G1 (x : R) : R := x * ln x - x.
Definition G2 (x : R) : R := x * (ln x) ^ 2 - 2 * (x * ln x) + 2 * x.
Lemma G1_der : forall x, 0 < x -> derivable_pt_lim G1 x (ln x).
Proof.
  intros x Hx. unfold G1. replace (ln x) with (1 * ln x + x * / x - 1) by (field; lra).
  apply (derivable_pt_lim_minus (fun x => x * ln x) (fun x => x)); [|apply derivable_pt_lim_id].
  apply (derivable_pt_lim_mult (fun x => x) ln); [apply derivable_pt_lim_id|apply derivable_pt_lim_ln; auto].
Qed.
Lemma G2_der : forall x, 0 < x -> derivable_pt_lim G2 x ((ln x) ^ 2).
Proof.
  intros x Hx. unfold G2.
  assert (D : derivable_pt_lim (fun x => x * ln x) x (ln x + 1)).
  { replace (ln x + 1) with (1 * ln x + x * / x) by (field; lra).
    apply (derivable_pt_lim_mult (fun x => x) ln); [apply derivable_pt_lim_id|apply derivable_pt_lim_ln; auto]. }
  replace ((ln x) ^ 2) with (((ln x + 1) * ln x + (x * ln x) * / x) - 2 * (ln x + 1) + 2 * 1) by (field; lra).
  apply (derivable_pt_lim_plus (fun x => x * (ln x) ^ 2 - 2 * (x * ln x)) (fun x => 2 * x)).
  2:{ apply (derivable_pt_lim_scal (fun x => x)). apply derivable_pt_lim_id. }
  apply (derivable_pt_lim_minus (fun x => x * (ln x) ^ 2) (fun x => 2 * (x * ln x))).
  2:{ apply (derivable_pt_lim_scal (fun x => x * ln x)). auto. }
  assert (D2 : derivable_pt_lim (fun x => (x * ln x) * ln x) x ((ln x + 1) * ln x + (x * ln x) * / x)).
  { apply (derivable_pt_lim_mult (fun x => x * ln x) ln); auto. apply derivable_pt_lim_ln; auto. }
  eapply (derivable_pt_lim_ext _ _ x _); [|exact D2]. intros z. cbn beta. ring.
Qed.
Lemma ln_mono : forall a b, 0 < a -> a <= b -> ln a <= ln b.
Proof. intros a b Ha [H| ->]; [left; apply ln_increasing; auto|lra]. Qed.
Lemma ln_neg : forall a, 0 < a <= 1 -> ln a <= 0.
Proof. intros a H. rewrite <- ln_1. apply ln_mono; lra. Qed.
Lemma G1_step : forall a b, 0 < a < b -> ln a * (b - a) <= G1 b - G1 a <= ln b * (b - a).
Proof.
  intros a b H. destruct (MVT_cor2 G1 ln a b) as (c & Hc & Hi); [lra|intros; apply G1_der; lra|].
  rewrite Hc. pose proof (ln_mono a c). pose proof (ln_mono c b). split; apply Rmult_le_compat_r; lra.
Qed.
Lemma G2_step : forall a b, 0 < a < b -> b <= 1 -> (ln b) ^ 2 * (b - a) <= G2 b - G2 a <= (ln a) ^ 2 * (b - a).
Proof.
  intros a b H Hb. destruct (MVT_cor2 G2 (fun x => (ln x) ^ 2) a b) as (c & Hc & Hi); [lra|intros; apply G2_der; lra|].
  cbn beta in Hc. rewrite Hc. pose proof (ln_mono a c ltac:(lra) ltac:(lra)). pose proof (ln_mono c b ltac:(lra) ltac:(lra)).
  pose proof (ln_neg b ltac:(lra)). split; apply Rmult_le_compat_r; nra.
Qed.

(** First and second moment of [ln u]. *)
Definition m1 (N : nat) : R := sumR (map ln (grid N)) / INR N.
Definition m2 (N : nat) : R := sumR (map (fun u => (ln u) ^ 2) (grid N)) / INR N.

Lemma grid_point : forall N k, (1 <= k <= N)%nat -> 0 < INR k / INR N <= 1.
Proof.
  intros N k H. assert (1 <= INR k) by (apply (le_INR 1); lia). assert (INR k <= INR N) by (apply le_INR; lia).
  split; [apply Rdiv_lt_0_compat; lra|]. apply (Rmult_le_reg_r (INR N)); [lra|]. unfold Rdiv. rewrite Rmult_assoc, Rinv_l by lra. lra.
Qed.
Lemma moments : forall N, (0 < N)%nat ->
    -1 <= m1 N <= -1 + (ln (INR N) + 1) / INR N /\
    2 - ((ln (INR N)) ^ 2 + 2 * ln (INR N) + 2) / INR N <= m2 N <= 2.
Proof.
  intros N HN. destruct N as [|n]; [lia|]. set (N := INR (S n)).
  assert (HN0 : 1 <= N) by (unfold N; apply (le_INR 1); lia).
  assert (Hl : ln (1 / N) = - ln N) by (unfold Rdiv; rewrite Rmult_1_l, ln_Rinv by lra; auto).
  assert (Hstep : forall k, (1 <= k < S n)%nat -> 0 < INR k / N < INR (S k) / N /\ INR (S k) / N <= 1 /\ INR (S k) / N - INR k / N = / N).
  { intros k Hk. pose proof (grid_point (S n) k ltac:(lia)). pose proof (grid_point (S n) (S k) ltac:(lia)). fold N in H, H0.
    assert (E : INR (S k) / N - INR k / N = / N) by (rewrite S_INR; field; lra).
    assert (0 < / N) by (apply Rinv_0_lt_compat; lra). lra. }
  assert (F1 : INR (S n) / N = 1) by (unfold N; field; unfold N in HN0; lra).
  assert (Gone : G1 1 = -1) by (unfold G1; rewrite ln_1; lra).
  assert (Gtwo : G2 1 = 2) by (unfold G2; rewrite ln_1; lra).
  assert (Ga : G1 (1 / N) = - (ln N + 1) / N) by (unfold G1; rewrite Hl; field; lra).
  assert (Gb : G2 (1 / N) = ((ln N) ^ 2 + 2 * ln N + 2) / N) by (unfold G2; rewrite Hl; field; lra).
  assert (A1 := telescope_low (fun x => G1 (x / N)) (fun x => - 0 + ln (x / N) * / N)).
  assert (up : forall (f : R -> R) l, sumR (map (fun k => f (INR k / N) * / N) l) = sumR (map (fun k => f (INR k / N)) l) / N).
  { intros f l. unfold Rdiv at 2. rewrite (Rmult_comm _ (/ N)), <- sumR_mult. f_equal. apply map_ext. intros; lra. }
  assert (S1 : forall (f : R -> R), sumR (map f (grid (S n))) = f (1 / N) + sumR (map (fun k => f (INR k / N)) (seq 2 n))).
  { intros f. unfold grid. fold N. rewrite map_map. cbn [seq map]. unfold sumR at 1. cbn [fold_right]. fold sumR. reflexivity. }
  assert (S2 : forall (f : R -> R), sumR (map f (grid (S n))) = sumR (map (fun k => f (INR k / N)) (seq 1 n)) + f 1).
  { intros f. unfold grid. fold N. rewrite map_map, seq_S, map_app, sumR_app'. cbn [map]. unfold sumR at 2. cbn [fold_right].
    replace (1 + n)%nat with (S n) by lia. rewrite F1. lra. }
  clear A1. unfold m1, m2. fold N.
  assert (T1 : sumR (map (fun k => ln (INR k / N)) (seq 1 n)) / N <= G1 1 - G1 (1 / N)).
  { rewrite <- up. rewrite <- F1 at 1.
    assert (T := telescope_low (fun x => - G1 (x / N)) (fun x => - (ln (x / N) * / N)) n).
    cbn beta in T. assert (T' : sumR (map (fun k => ln (INR k / N) * / N) (seq 1 n)) = - sumR (map (fun k => - (ln (INR k / N) * / N)) (seq 1 n))).
    { rewrite <- (Ropp_involutive (sumR (map _ _))). f_equal. rewrite <- (Rmult_1_l (sumR _)), Ropp_mult_distr_l, <- sumR_mult. f_equal. apply map_ext. intros; lra. }
    rewrite T'. enough (- G1 (INR (S n) / N) - - G1 (1 / N) <= sumR (map (fun k => - (ln (INR k / N) * / N)) (seq 1 n))) by lra.
    apply T. intros k Hk. destruct (Hstep k Hk) as (H1 & H2 & H3). pose proof (G1_step _ _ H1). rewrite H3 in H. lra. }
  assert (T2 : G1 1 - G1 (1 / N) <= sumR (map (fun k => ln (INR k / N)) (seq 2 n)) / N).
  { rewrite <- up. rewrite <- F1 at 1.
    assert (T := telescope (fun x => - G1 (x / N)) (fun x => - (ln (x / N) * / N)) n).
    cbn beta in T. assert (T' : sumR (map (fun k => ln (INR k / N) * / N) (seq 2 n)) = - sumR (map (fun k => - (ln (INR k / N) * / N)) (seq 2 n))).
    { rewrite <- (Ropp_involutive (sumR (map _ _))). f_equal. rewrite <- (Rmult_1_l (sumR _)), Ropp_mult_distr_l, <- sumR_mult. f_equal. apply map_ext. intros; lra. }
    rewrite T'. enough (sumR (map (fun k => - (ln (INR k / N) * / N)) (seq 2 n)) <= - G1 (INR (S n) / N) - - G1 (1 / N)) by lra.
    apply T. intros k Hk. destruct (Hstep k Hk) as (H1 & H2 & H3). pose proof (G1_step _ _ H1). rewrite H3 in H. lra. }
  assert (T3 : sumR (map (fun k => (ln (INR k / N)) ^ 2) (seq 2 n)) / N <= G2 1 - G2 (1 / N)).
  { rewrite <- (up (fun x => (ln x) ^ 2)). rewrite <- F1 at 1.
    apply (telescope (fun x => G2 (x / N)) (fun x => (ln (x / N)) ^ 2 * / N) n).
    intros k Hk. destruct (Hstep k Hk) as (H1 & H2 & H3). pose proof (G2_step _ _ H1 H2). rewrite H3 in H. lra. }
  assert (T4 : G2 1 - G2 (1 / N) <= sumR (map (fun k => (ln (INR k / N)) ^ 2) (seq 1 n)) / N).
  { rewrite <- (up (fun x => (ln x) ^ 2)). rewrite <- F1 at 1.
    apply (telescope_low (fun x => G2 (x / N)) (fun x => (ln (x / N)) ^ 2 * / N) n).
    intros k Hk. destruct (Hstep k Hk) as (H1 & H2 & H3). pose proof (G2_step _ _ H1 H2). rewrite H3 in H. lra. }
  assert (Hi : 0 < / N) by (apply Rinv_0_lt_compat; lra). pose proof (ln_mono 1 N ltac:(lra) HN0) as Hln. rewrite ln_1 in Hln.
  split; split.
  - rewrite S1, Hl. unfold Rdiv in *. rewrite Rmult_plus_distr_r. nra.
  - rewrite S2, ln_1. unfold Rdiv in *. rewrite Rmult_plus_distr_r. nra.
  - rewrite S2, ln_1. unfold Rdiv in *. rewrite Rmult_plus_distr_r. nra.
  - rewrite S1, Hl. unfold Rdiv in *. rewrite Rmult_plus_distr_r. nra.
Qed.

(** ** Averages over all lists of draws *)

Fixpoint all_lists (g : list R) (m : nat) : list (list R) :=
  match m with
  | O => [[]]
  | S m' => flat_map (fun u => map (cons u) (all_lists g m')) g
  end.
Lemma in_all_lists : forall g m us, In us (all_lists g m) <-> length us = m /\ forall u, In u us -> In u g.
Proof.
  induction m as [|m IH]; intros us; cbn [all_lists].
  - split; [intros [<-|[]]; split; auto; intros u []|]. intros (H & _). destruct us; [left; auto|discriminate].
  - rewrite in_flat_map. split.
    + intros (u & Hu & H). apply in_map_iff in H as (v & <- & H). apply IH in H as (<- & H). split; auto.
      intros x [<-|Hx]; auto.
    + intros (Hl & H). destruct us as [|u us]; [discriminate|]. exists u. split; [apply H; left; auto|].
      apply in_map. apply IH. split; [cbn in Hl; lia|]. intros; apply H; right; auto.
Qed.
Lemma NoDup_app_r : forall A (a b : list A), NoDup a -> NoDup b -> (forall x, In x a -> ~ In x b) -> NoDup (a ++ b).
Proof.
  induction a as [|x a IH]; intros b Ha Hb H; auto. inversion Ha; subst. cbn. constructor.
  - rewrite in_app_iff. intros [Hi|Hi]; auto. apply (H x); cbn; auto.
  - apply IH; auto. intros y Hy. apply H. right; auto.
Qed.
Lemma NoDup_map_r : forall A B (f : A -> B) l, (forall x y, In x l -> In y l -> f x = f y -> x = y) -> NoDup l -> NoDup (map f l).
Proof.
  intros A B f l Hf H. induction H as [|x l Hx Hn IH]; cbn; constructor.
  - intros Hi. apply in_map_iff in Hi as (y & Hy & Hin). apply Hx. rewrite <- (Hf y x); auto; [right; auto|left; auto].
  - apply IH. intros a b Ha Hb. apply Hf; right; auto.
Qed.
Lemma flat_cons_NoDup : forall (h : list R) (L : list (list R)), NoDup h -> NoDup L -> NoDup (flat_map (fun u => map (cons u) L) h).
Proof.
  intros h L Hh HL. induction Hh as [|u h Hu Hn IH]; cbn [flat_map]; [constructor|].
  apply NoDup_app_r; auto.
  - apply NoDup_map_r; auto. intros x y _ _ H. injection H; auto.
  - intros x Hx Hy. apply in_map_iff in Hx as (v & <- & _). apply in_flat_map in Hy as (u' & Hu' & Hy).
    apply in_map_iff in Hy as (v' & Hv & _). injection Hv as -> _. auto.
Qed.
Lemma all_lists_NoDup : forall g m, NoDup g -> NoDup (all_lists g m).
Proof.
  intros g m Hg. induction m as [|m IH]; cbn [all_lists]; [repeat constructor; intros []|]. apply flat_cons_NoDup; auto.
Qed.
Lemma all_lists_length : forall g m, length (all_lists g m) = (length g ^ m)%nat.
Proof.
  induction m as [|m IH]; auto. cbn [all_lists Nat.pow]. rewrite <- IH. generalize (all_lists g m) as L. intros L.
  induction g as [|u h IHg]; auto. cbn [flat_map length]. rewrite app_length, map_length.
  transitivity (length L + length (flat_map (fun u => map (cons u) L) h))%nat; auto. clear IH.
  assert (E : length (flat_map (fun u => map (cons u) L) h) = (length h * length L)%nat).
  { clear. induction h; auto. cbn. rewrite app_length, map_length, IHh. lia. }
  rewrite E. lia.
Qed.

Definition mu (g : list R) (phi : R -> R) : R := sumR (map phi g) / INR (length g).
Fixpoint ex (g : list R) (m : nat) (phi : list R -> R) : R :=
  match m with O => phi [] | S m' => mu g (fun u => ex g m' (fun v => phi (u :: v))) end.
Lemma sumR_flat : forall A (F : A -> list R) l, sumR (flat_map F l) = sumR (map (fun a => sumR (F a)) l).
Proof. induction l; auto. cbn [flat_map map]. rewrite sumR_app', IHl. reflexivity. Qed.
Lemma ex_sum : forall g m phi, g <> [] -> mean (map phi (all_lists g m)) = ex g m phi.
Proof.
  intros g m phi Hg. unfold mean. rewrite map_length, all_lists_length.
  assert (Hl : 0 < INR (length g)) by (apply lt_0_INR; destruct g; [congruence|cbn; lia]).
  revert phi. induction m as [|m IH]; intros phi.
  - cbn. unfold sumR. cbn. lra.
  - cbn [all_lists ex]. unfold mu.
    assert (E : map phi (flat_map (fun u => map (cons u) (all_lists g m)) g) = flat_map (fun u => map (fun v => phi (u :: v)) (all_lists g m)) g).
    { generalize (all_lists g m) as L. clear. intros L. induction g as [|u g IH]; auto. cbn [flat_map]. rewrite map_app, map_map, IH. auto. }
    rewrite E, sumR_flat. rewrite (map_ext _ _ (fun u => eq_sym (IH (fun v => phi (u :: v))))).
    rewrite (map_ext (fun u => _ / _) (fun u => / INR (length g ^ m) * sumR (map (fun v => phi (u :: v)) (all_lists g m)))) by (intros; unfold Rdiv; lra).
    rewrite sumR_mult. cbn [Nat.pow]. rewrite mult_INR. field. split; [apply not_0_INR, Nat.pow_nonzero; intros H0; rewrite H0 in Hl; cbn in Hl; lra|lra].
Qed.
Lemma mu_ext : forall g f h, (forall u, f u = h u) -> mu g f = mu g h.
Proof. intros g f h H. unfold mu. rewrite (map_ext _ _ H). auto. Qed.
Lemma ex_ext : forall g m f h, (forall u, f u = h u) -> ex g m f = ex g m h.
Proof. induction m as [|m IH]; intros f h H; cbn [ex]; auto. apply mu_ext. intros u. apply IH. auto. Qed.
Lemma ex_lin : forall g m a b c f h, g <> [] -> ex g m (fun v => a * f v + b * h v + c) = a * ex g m f + b * ex g m h + c.
Proof.
  intros g m a b c f h Hg. revert f h. assert (Hl : 0 < INR (length g)) by (apply lt_0_INR; destruct g; [congruence|cbn; lia]).
  induction m as [|m IH]; intros f h; cbn [ex]; auto.
  rewrite (mu_ext _ _ _ (fun u => IH (fun v => f (u :: v)) (fun v => h (u :: v)))). unfold mu.
  rewrite !sumR_plus, !sumR_mult, sumR_const. field. lra.
Qed.

(** Sum of [a_j ln u_j]. *)
Fixpoint dot (a us : list R) : R :=
  match a, us with x :: a', u :: us' => x * ln u + dot a' us' | _, _ => 0 end.
Lemma ex_dot : forall g a m, g <> [] -> (length a <= m)%nat -> ex g m (dot a) = sumR a * mu g ln.
Proof.
  intros g a m Hg. revert m. assert (Hl : 0 < INR (length g)) by (apply lt_0_INR; destruct g; [congruence|cbn; lia]).
  induction a as [|x a IH]; intros m Hm.
  - rewrite (ex_ext _ _ _ (fun v => 0 * 0 + 0 * 0 + 0)) by (intros; cbn; lra). rewrite (ex_lin g m 0 0 0 (fun _ => 0) (fun _ => 0)) by auto.
    unfold sumR. cbn. lra.
  - destruct m as [|m]; [cbn in Hm; lia|]. cbn [ex dot].
    rewrite (mu_ext _ _ (fun u => x * ln u + sumR a * mu g ln)).
    + unfold mu at 1. rewrite sumR_plus, sumR_mult, sumR_const.
      assert (E1 : sumR (map ln g) = INR (length g) * mu g ln) by (unfold mu; field; lra).
      rewrite E1. change (sumR (x :: a)) with (x + sumR a). field. lra.
    + intros u. rewrite (ex_ext _ _ _ (fun v => 1 * dot a v + 0 * 0 + x * ln u)) by (intros; lra).
      rewrite (ex_lin g m 1 0 (x * ln u) (dot a) (fun _ => 0)) by auto. rewrite IH by (cbn in Hm; lia). lra.
Qed.
Lemma ex_dot2 : forall g a m, g <> [] -> (length a <= m)%nat ->
    ex g m (fun v => (dot a v - sumR a * mu g ln) ^ 2) = sumR (map (fun x => x ^ 2) a) * (mu g (fun u => (ln u) ^ 2) - (mu g ln) ^ 2).
Proof.
  intros g a m Hg. revert m. assert (Hl : 0 < INR (length g)) by (apply lt_0_INR; destruct g; [congruence|cbn; lia]).
  induction a as [|x a IH]; intros m Hm.
  - rewrite (ex_ext _ _ _ (fun v => 0 * 0 + 0 * 0 + 0)) by (intros; cbn; unfold sumR; cbn; ring).
    rewrite (ex_lin g m 0 0 0 (fun _ => 0) (fun _ => 0)) by auto. unfold sumR. cbn. lra.
  - destruct m as [|m]; [cbn in Hm; lia|]. cbn [ex dot]. set (M := mu g ln) in *. set (M2 := mu g (fun u => (ln u) ^ 2)) in *.
    set (V := sumR (map (fun x => x ^ 2) a) * (M2 - M ^ 2)) in *.
    assert (Hs : sumR (x :: a) = x + sumR a) by reflexivity.
    rewrite (mu_ext _ _ (fun u => x ^ 2 * (ln u) ^ 2 + (-2 * x ^ 2 * M) * ln u + (x ^ 2 * M ^ 2 + V))).
    + unfold mu at 1. rewrite !sumR_plus, !sumR_mult, !sumR_const.
      assert (E1 : sumR (map ln g) = INR (length g) * M) by (unfold M, mu; field; lra).
      assert (E2 : sumR (map (fun u => (ln u) ^ 2) g) = INR (length g) * M2) by (unfold M2, mu; field; lra).
      rewrite E1, E2. change (sumR (map (fun x0 => x0 ^ 2) (x :: a))) with (x ^ 2 + sumR (map (fun x0 => x0 ^ 2) a)).
      unfold V. clearbody M M2. field. lra.
    + intros u. rewrite (ex_ext _ _ _ (fun v => 1 * (dot a v - sumR a * M) ^ 2 + (2 * x * (ln u - M)) * (1 * dot a v + 0 * 0 + - (sumR a * M)) + x ^ 2 * (ln u - M) ^ 2))
        by (intros; rewrite Hs; ring).
      rewrite (ex_lin g m 1 (2 * x * (ln u - M)) (x ^ 2 * (ln u - M) ^ 2) (fun v => (dot a v - sumR a * M) ^ 2) (fun v => 1 * dot a v + 0 * 0 + - (sumR a * M))) by auto.
      rewrite (ex_lin g m 1 0 (- (sumR a * M)) (dot a) (fun _ => 0)) by auto.
      rewrite IH, ex_dot by (auto; cbn in Hm; lia). fold M. unfold V. ring.
Qed.

Lemma grid_length : forall N, length (grid N) = N.
Proof. intros. unfold grid. rewrite map_length, seq_length. auto. Qed.
Lemma grid_NoDup : forall N, (0 < N)%nat -> NoDup (grid N).
Proof.
  intros N HN. unfold grid. apply NoDup_map_r; [|apply seq_NoDup]. intros x y _ _ H.
  assert (0 < INR N) by (apply lt_0_INR; lia). apply INR_eq. apply (Rmult_eq_reg_r (/ INR N)); auto.
  apply Rinv_neq_0_compat. lra.
Qed.
Lemma cumsum_dot : forall nlive us i, (i < length nlive)%nat -> length us = length nlive ->
    nth i (cumsum (map2 (fun u n => ln u / IZR n) us nlive)) 0 = dot (map (fun n => / IZR n) (firstn (S i) nlive)) us.
Proof.
  intros nlive us i Hi Hl. unfold cumsum.
  assert (G : forall s, nth i (cumsum_from s (map2 (fun u n => ln u / IZR n) us nlive)) 0 = s + dot (map (fun n => / IZR n) (firstn (S i) nlive)) us).
  { revert us i Hi Hl. induction nlive as [|n t IH]; intros us i Hi Hl s; [cbn in Hi; lia|].
    destruct us as [|u us]; [discriminate|]. destruct i as [|i].
    - cbn. destruct us; lra.
    - change (firstn (S (S i)) (n :: t)) with (n :: firstn (S i) t). cbn [map dot]. unfold map2. cbn [combine map cumsum_from nth fst snd]. fold (map2 (fun u n => ln u / IZR n) us t).
      rewrite IH by (cbn in *; lia). unfold Rdiv. lra. }
  rewrite G. lra.
Qed.
Lemma cumsum_expected : forall nlive i, (i < length nlive)%nat ->
    nth i (cumsum (map (fun n => -1 * / IZR n) nlive)) 0 = - sumR (map (fun n => / IZR n) (firstn (S i) nlive)).
Proof.
  intros nlive i Hi. unfold cumsum.
  assert (G : forall s, nth i (cumsum_from s (map (fun n => -1 * / IZR n) nlive)) 0 = s - sumR (map (fun n => / IZR n) (firstn (S i) nlive))).
  { revert i Hi. induction nlive as [|n t IH]; intros i Hi s; [cbn in Hi; lia|]. destruct i as [|i].
    - cbn. unfold sumR. cbn. lra.
    - change (firstn (S (S i)) (n :: t)) with (n :: firstn (S i) t). cbn [map cumsum_from nth]. rewrite IH by (cbn in Hi; lia). unfold sumR. cbn [fold_right]. lra. }
  rewrite G. lra.
Qed.
Lemma firstn_seq : forall (f : Z -> R) (l : list Z) k d, (k <= length l)%nat ->
    map f (firstn k l) = map (fun j => f (nth j l d)) (seq 0 k).
Proof.
  induction l as [|x l IH]; intros k d H; destruct k; auto; [cbn in H; lia|]. cbn [firstn map seq]. f_equal.
  rewrite (IH k d) by (cbn in H; lia). rewrite <- seq_shift, map_map. auto.
Qed.

(** [all] are the lists of numbers [k / N], [1 <= k <= N], one for each sample:
    as drawn from a uniform distribution with N possible values.  The mean of
    the simulated log-volumes in all these cases is close to the log-volume
    without simulation, and their variance to the sum of [1 / n_j ^ 2], with
    relative errors which vanish for large N. *)
Theorem C91_expected_shrinkage : forall nlive N all, (0 < N)%nat -> nlive <> [] ->
    (forall n, In n nlive -> (0 < n)%Z) -> NoDup all ->
    (forall us, In us all <-> length us = length nlive /\
                              forall u, In u us -> exists k, (1 <= k <= N)%nat /\ u = INR k / INR N) ->
    exists logx sims, get_logx nlive None = Ok logx /\
      Forall2 (fun us lx => get_logx nlive (Some us) = Ok lx) all sims /\
      length all = (N ^ length nlive)%nat /\
      forall i, (i < length nlive)%nat ->
        let values := map (fun lx => nth i lx 0) sims in
        let var := sumR (map (fun j => (/ IZR (nth j nlive 1%Z)) ^ 2) (seq 0 (S i))) in
        Rabs (mean values - nth i logx 0) <= - nth i logx 0 * ((ln (INR N) + 1) / INR N) /\
        Rabs (mean (map (fun v => (v - mean values) ^ 2) values) - var) <=
          var * (((ln (INR N)) ^ 2 + 2 * ln (INR N) + 2) / INR N).
Proof.
  intros nlive N all HN Hne Hpos Hnd Hall. exists (cumsum (logx_steps nlive None)), (map (fun us => cumsum (logx_steps nlive (Some us))) all).
  split; [apply get_logx_run; auto|]. split.
  { clear - Hne Hpos. induction all as [|us all IH]; cbn [map]; constructor; auto. apply get_logx_run; auto. }
  set (g := grid N). set (m := length nlive).
  assert (Hg : g <> []) by (intros H0; apply (f_equal (@length R)) in H0; unfold g in H0; rewrite grid_length in H0; cbn in H0; lia).
  assert (Hp : Permutation all (all_lists g m)).
  { apply NoDup_Permutation; auto; [apply all_lists_NoDup, grid_NoDup; auto|]. intros us. rewrite Hall, in_all_lists. fold m.
    split; intros (A & B); split; auto; intros u Hu.
    - destruct (B u Hu) as (k & Hk & ->). unfold g, grid. apply (in_map (fun k => INR k / INR N)), in_seq. lia.
    - apply B in Hu. unfold g, grid in Hu. apply in_map_iff in Hu as (k & <- & Hk). apply in_seq in Hk. exists k. split; auto. lia. }
  split; [rewrite (Permutation_length Hp), all_lists_length; unfold g; rewrite grid_length; auto|].
  intros i Hi values var. set (a := map (fun n => / IZR n) (firstn (S i) nlive)).
  assert (Ha : (length a <= m)%nat) by (unfold a; rewrite map_length, firstn_length; unfold m; lia).
  assert (Hm : forall h, mean (map h values) = ex g m (fun us => h (dot a us))).
  { intros h. rewrite <- ex_sum by auto. unfold values. rewrite !map_map.
    transitivity (mean (map (fun us => h (dot a us)) all)).
    - f_equal. apply map_ext_in. intros us Hu. apply Hall in Hu as (Hu & _). f_equal. unfold a. cbn [logx_steps].
      apply cumsum_dot; auto.
    - unfold mean. rewrite !map_length, (Permutation_length Hp). f_equal. apply sumR_perm', Permutation_map, Hp. }
  assert (HM : mu g ln = m1 N) by (unfold mu, m1, g; rewrite grid_length; auto).
  assert (HM2 : mu g (fun u => (ln u) ^ 2) = m2 N) by (unfold mu, m2, g; rewrite grid_length; auto).
  assert (E1 : mean values = sumR a * m1 N).
  { rewrite <- (map_id values), Hm, <- HM. apply ex_dot; auto. }
  assert (E2 : mean (map (fun v => (v - mean values) ^ 2) values) = var * (m2 N - (m1 N) ^ 2)).
  { rewrite (Hm (fun v => (v - mean values) ^ 2)), E1, <- HM, <- HM2, ex_dot2 by auto. f_equal. unfold var, a.
    rewrite map_map. f_equal. apply (firstn_seq (fun n => (/ IZR n) ^ 2)). unfold m in *; lia. }
  assert (E3 : nth i (cumsum (logx_steps nlive None)) 0 = - sumR a) by (cbn [logx_steps]; apply cumsum_expected; auto).
  rewrite E2, E1, E3. destruct (moments N HN) as ((A1 & A2) & (A3 & A4)).
  assert (HN1 : 1 <= INR N) by (apply (le_INR 1); lia). pose proof (ln_mono 1 (INR N) ltac:(lra) HN1) as Hln. rewrite ln_1 in Hln.
  assert (Hi0 : 0 < / INR N) by (apply Rinv_0_lt_compat; lra).
  assert (Pa : 0 <= sumR a).
  { unfold a. assert (Hin : forall n, In n (firstn (S i) nlive) -> (0 < n)%Z) by (intros n Hn; apply Hpos; rewrite <- (firstn_skipn (S i) nlive); apply in_or_app; auto).
    clear - Hin. induction (firstn (S i) nlive) as [|n l IH]; unfold sumR in *; cbn; [lra|].
    assert (0 < / IZR n) by (apply Rinv_0_lt_compat; apply IZR_lt, Hin; left; auto). specialize (IH (fun n H => Hin n (or_intror H))). lra. }
  assert (Pv : 0 <= var).
  { unfold var. clear. induction (seq 0 (S i)) as [|j l IH]; unfold sumR in *; cbn [map fold_right]; [lra|].
    pose proof (pow2_ge_0 (/ IZR (nth j nlive 1%Z))). lra. }
  assert (Hm1 : m1 N <= 0).
  { unfold m1. assert (sumR (map ln (grid N)) <= 0).
    { unfold grid. assert (Hs : forall k, In k (seq 1 N) -> (1 <= k <= N)%nat) by (intros k Hk; apply in_seq in Hk; lia).
      rewrite map_map. induction (seq 1 N) as [|k l IH]; unfold sumR in *; cbn [map fold_right]; [lra|].
      pose proof (ln_neg _ (grid_point N k (Hs k (or_introl eq_refl)))). specialize (IH (fun k H => Hs k (or_intror H))). lra. }
    unfold Rdiv. nra. }
  set (L := ln (INR N)) in *. set (d1 := (L + 1) / INR N) in *. set (d2 := (L ^ 2 + 2 * L + 2) / INR N) in *.
  assert (Hd : 2 * d1 <= d2).
  { unfold d1, d2, Rdiv. assert (0 <= L ^ 2 * / INR N) by (apply Rmult_le_pos; [apply pow2_ge_0|lra]). lra. }
  split.
  - replace (sumR a * m1 N - - sumR a) with (sumR a * (m1 N + 1)) by ring. rewrite Rabs_right; nra.
  - replace (var * (m2 N - m1 N ^ 2) - var) with (var * (m2 N - m1 N ^ 2 - 1)) by ring.
    rewrite Rabs_mult, (Rabs_right var) by lra. apply Rmult_le_compat_l; auto. apply Rabs_le. split; nra.
Qed.
Print Assumptions C91_expected_shrinkage.

(** Draws from two values for two samples. *)
Example C91_example : exists all : list (list R), NoDup all /\
    (forall us, In us all <-> length us = length [2; 1]%Z /\
                              forall u, In u us -> exists k, (1 <= k <= 2)%nat /\ u = INR k / INR 2) /\
    In [1 / 2; 2 / 2] all /\
    get_logx [2; 1]%Z (Some [1 / 2; 2 / 2]) = Ok [0 + ln (1 / 2) / 2; 0 + ln (1 / 2) / 2 + ln (2 / 2) / 1] /\
    get_logx [2; 1]%Z None = Ok [0 + -1 * / 2; 0 + -1 * / 2 + -1 * / 1].
Proof.
  exists (all_lists (grid 2) 2). split; [apply all_lists_NoDup, grid_NoDup; lia|]. split; [|split; [|split; reflexivity]].
  - intros us. rewrite in_all_lists. cbn [length]. split; intros (A & B); split; auto; intros u Hu.
    + apply B in Hu. unfold grid in Hu. apply in_map_iff in Hu as (k & <- & Hk). apply in_seq in Hk. exists k. split; auto. lia.
    + destruct (B u Hu) as (k & Hk & ->). unfold grid. apply (in_map (fun k => INR k / INR 2)), in_seq. lia.
  - apply in_all_lists. split; auto.
Qed.

(** The two error bounds above are at most [26 / sqrt N]. *)
Theorem C91_errors_vanish : forall N, (0 < N)%nat ->
    0 <= (ln (INR N) + 1) / INR N <= ((ln (INR N)) ^ 2 + 2 * ln (INR N) + 2) / INR N /\
    ((ln (INR N)) ^ 2 + 2 * ln (INR N) + 2) / INR N <= 26 / sqrt (INR N).
Proof.
  intros n Hn. assert (HN : 1 <= INR n) by (apply (le_INR 1); lia). set (N := INR n) in *.
  pose proof (ln_mono 1 N ltac:(lra) HN) as Hln. rewrite ln_1 in Hln.
  assert (Hi : 0 < / N) by (apply Rinv_0_lt_compat; lra).
  split; [split; unfold Rdiv; [nra|apply Rmult_le_compat_r; [lra|nra]]|].
  set (s := sqrt N). set (y := sqrt s).
  assert (Hs : 1 <= s) by (unfold s; rewrite <- sqrt_1; apply sqrt_le_1; lra).
  assert (Hy : 1 <= y) by (unfold y; rewrite <- sqrt_1; apply sqrt_le_1; lra).
  assert (Es : s = y * y) by (unfold y; rewrite sqrt_sqrt; lra).
  assert (EN : N = s * s) by (unfold s; rewrite sqrt_sqrt; lra).
  assert (El : ln N = 4 * ln y) by (rewrite EN, Es, !ln_mult by nra; lra).
  assert (Hly : 0 <= ln y <= y).
  { split; [rewrite <- ln_1; apply ln_mono; lra|]. apply Rle_trans with (ln (exp y)); [|rewrite ln_exp; lra].
    apply ln_mono; [lra|]. pose proof (exp_ineq1 y ltac:(lra)). lra. }
  assert (B : (ln N) ^ 2 + 2 * ln N + 2 <= 26 * s) by (rewrite El, Es; nra).
  rewrite EN at 3. unfold Rdiv. rewrite Rinv_mult. rewrite <- Rmult_assoc.
  assert (0 < / s) by (apply Rinv_0_lt_compat; lra). apply Rmult_le_compat_r; [lra|].
  apply (Rmult_le_reg_r s); [lra|]. rewrite Rmult_assoc, Rinv_l by lra. lra.
Qed.
Print Assumptions C91_errors_vanish.
