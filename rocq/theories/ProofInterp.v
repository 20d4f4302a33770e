(** Lemmas on averages, interpolation and weighted quantiles. *)
From Coq Require Import Lra.
From Verif Require Import Base ModelRun ModelReal ProofBase SpecReal ProofReal.
Local Open Scope R_scope.

(** ** Averages *)

Lemma average_scaled : forall n w x c, c <> 0 -> average n (fun i => c * w i) x = average n w x.
Proof.
  intros n w x c Hc. unfold average. change sumR with rsum.
  rewrite (map_ext (fun i => c * w i * x i) (fun i => c * (w i * x i))) by (intros; lra).
  rewrite !rsum_scale. unfold Rdiv. destruct (Req_dec (rsum (map w (seq 0 n))) 0) as [->|H].
  - rewrite Rmult_0_r. rewrite Rinv_0. lra.
  - rewrite Rinv_mult. field. auto.
Qed.
Lemma average_bounds : forall n w x lo hi, (0 < n)%nat ->
    (forall i, (i < n)%nat -> 0 < w i /\ lo <= x i <= hi) -> lo <= average n w x <= hi.
Proof.
  intros n w x lo hi Hn H. unfold average. change sumR with rsum.
  assert (Hs : 0 < rsum (map w (seq 0 n))).
  { apply rsum_pos; [destruct n; [lia|discriminate]|]. intros y Hy. apply in_map_iff in Hy as (i & <- & Hi).
    apply in_seq in Hi. apply H. lia. }
  assert (H1 : lo * rsum (map w (seq 0 n)) <= rsum (map (fun i => w i * x i) (seq 0 n))).
  { rewrite <- rsum_scale. apply rsum_le. intros i Hi. apply in_seq in Hi. destruct (H i); [lia|nra]. }
  assert (H2 : rsum (map (fun i => w i * x i) (seq 0 n)) <= hi * rsum (map w (seq 0 n))).
  { rewrite <- rsum_scale. apply rsum_le. intros i Hi. apply in_seq in Hi. destruct (H i); [lia|nra]. }
  split.
  - apply Rmult_le_reg_r with (rsum (map w (seq 0 n))); auto. unfold Rdiv.
    rewrite Rmult_assoc, Rinv_l by lra. lra.
  - apply Rmult_le_reg_r with (rsum (map w (seq 0 n))); auto. unfold Rdiv.
    rewrite Rmult_assoc, Rinv_l by lra. lra.
Qed.
Lemma average_linear : forall n w x y a b, 
    average n w (fun i => a * x i + b * y i) = a * average n w x + b * average n w y.
Proof.
  intros n w x y a b. unfold average. change sumR with rsum.
  rewrite (map_ext (fun i => w i * (a * x i + b * y i)) (fun i => a * (w i * x i) + b * (w i * y i))) by (intros; lra).
  rewrite rsum_plus, !rsum_scale. unfold Rdiv. lra.
Qed.
Lemma average_const : forall n w c, (0 < n)%nat -> (forall i, (i < n)%nat -> 0 < w i) ->
    average n w (fun _ => c) = c.
Proof.
  intros n w c Hn H. apply Rle_antisym; apply (average_bounds n w (fun _ => c) c c); auto;
    intros; split; auto; lra.
Qed.
Lemma average_ext : forall n w x y, (forall i, (i < n)%nat -> x i = y i) -> average n w x = average n w y.
Proof.
  intros n w x y H. unfold average. f_equal. f_equal. apply map_ext_in. intros i Hi. apply in_seq in Hi.
  rewrite H by lia. auto.
Qed.
Lemma average_le : forall n w x y, (0 < n)%nat ->
    (forall i, (i < n)%nat -> 0 < w i /\ x i <= y i) -> average n w x <= average n w y.
Proof.
  intros n w x y Hn H.
  assert (0 <= average n w (fun i => 1 * y i + (-1) * x i)).
  { assert (Hh : forall i, (i < n)%nat -> 1 * y i + (-1) * x i <= sumR (map (fun i => y i - x i) (seq 0 n))).
    { intros i Hi. change sumR with rsum.
      assert (Hg : forall l, (forall j, In j l -> 0 <= y j - x j) -> In i l -> y i - x i <= rsum (map (fun i => y i - x i) l)).
      { induction l as [|j l IH]; intros Hl Hil; [destruct Hil|]. cbn [map]. rewrite rsum_cons.
        destruct Hil as [->|Hil].
        - assert (0 <= rsum (map (fun i => y i - x i) l)); [|lra]. apply rsum_nonneg.
          intros z Hz. apply in_map_iff in Hz as (j & <- & Hj). apply Hl. right; auto.
        - assert (0 <= y j - x j) by (apply Hl; left; auto).
          assert (y i - x i <= rsum (map (fun i => y i - x i) l)) by (apply IH; auto; intros; apply Hl; right; auto).
          lra. }
      specialize (Hg (seq 0 n)). assert (y i - x i <= rsum (map (fun i => y i - x i) (seq 0 n))); [|lra].
      apply Hg; [|apply in_seq; lia]. intros j Hj. apply in_seq in Hj. destruct (H j); [lia|lra]. }
    apply (average_bounds n w _ 0 (sumR (map (fun i => y i - x i) (seq 0 n)))); auto.
    intros i Hi. split; [apply H; auto|]. split; [|apply Hh; auto]. destruct (H i Hi). lra. }
  rewrite average_linear in H0. lra.
Qed.
Lemma average_square : forall n w x, (0 < n)%nat -> (forall i, (i < n)%nat -> 0 < w i) ->
    average n w x ^ 2 <= average n w (fun i => x i ^ 2).
Proof.
  intros n w x Hn H. set (m := average n w x).
  assert (Hv : 0 <= average n w (fun i => 1 * (1 * (x i ^ 2) + (-2 * m) * x i) + m ^ 2 * 1)).
  { rewrite <- (average_const n w 0) by auto. apply average_le; auto. intros i Hi. split; auto.
    assert (0 <= (x i - m) ^ 2) by apply pow2_ge_0. lra. }
  rewrite average_linear, average_linear, average_const in Hv by auto. fold m in Hv. nra.
Qed.

(** ** Interpolation *)

Definition increasing (pts : list (R * R)) : Prop :=
  StronglySorted (fun a b => fst a < fst b /\ snd a <= snd b) pts.

Lemma lin_bounds : forall x0 f0 x1 f1 x, x0 < x1 -> f0 <= f1 -> x0 <= x <= x1 ->
    f0 <= (f1 - f0) / (x1 - x0) * (x - x0) + f0 <= f1.
Proof.
  intros x0 f0 x1 f1 x Hx Hf H.
  assert (Hs : 0 <= (f1 - f0) / (x1 - x0)).
  { unfold Rdiv. apply Rmult_le_pos; [lra|]. apply Rlt_le, Rinv_0_lt_compat. lra. }
  assert (He : (f1 - f0) / (x1 - x0) * (x1 - x0) = f1 - f0) by (field; lra).
  split; nra.
Qed.

Lemma go_bounds : forall t x x0 f0, increasing ((x0, f0) :: t) -> x0 <= x ->
    f0 <= interp_go x x0 f0 t /\ (forall hi, (forall p, In p ((x0, f0) :: t) -> snd p <= hi) -> interp_go x x0 f0 t <= hi).
Proof.
  induction t as [|[x1 f1] t IH]; intros x x0 f0 Hi Hx; cbn [interp_go].
  - split; [lra|]. intros hi Hh. apply (Hh (x0, f0)). left; auto.
  - apply StronglySorted_inv in Hi as [S F]. pose proof (Forall_inv F) as [F1 F2]. cbn in F1, F2.
    destruct (Rlt_dec x x1) as [Hlt|Hge].
    + assert (Hl := lin_bounds x0 f0 x1 f1 x F1 F2 ltac:(lra)).
      destruct (Req_EM_T x0 x) as [He|He]; split; try lra.
      * intros hi Hh. apply (Hh (x0, f0)). left; auto.
      * intros hi Hh. pose proof (Hh (x1, f1) (or_intror (or_introl eq_refl))). cbn in H. lra.
    + destruct (IH x x1 f1 S ltac:(lra)) as [I1 I2]. split; [lra|].
      intros hi Hh. apply I2. intros p Hp. apply Hh. right; auto.
Qed.
Lemma go_mono : forall t x y x0 f0, increasing ((x0, f0) :: t) -> x0 <= x -> x <= y ->
    interp_go x x0 f0 t <= interp_go y x0 f0 t.
Proof.
  induction t as [|[x1 f1] t IH]; intros x y x0 f0 Hi Hx Hy; cbn [interp_go]; [lra|].
  apply StronglySorted_inv in Hi as [S F]. pose proof (Forall_inv F) as [F1 F2]. cbn in F1, F2.
  destruct (Rlt_dec x x1) as [Hlt|Hge]; destruct (Rlt_dec y x1) as [Hlt'|Hge'].
  - assert (Hl := lin_bounds x0 f0 x1 f1 y F1 F2 ltac:(lra)).
    assert (Hs : 0 <= (f1 - f0) / (x1 - x0)).
    { unfold Rdiv. apply Rmult_le_pos; [lra|]. apply Rlt_le, Rinv_0_lt_compat. lra. }
    destruct (Req_EM_T x0 x); destruct (Req_EM_T x0 y); try lra; nra.
  - assert (Hl := lin_bounds x0 f0 x1 f1 x F1 F2 ltac:(lra)).
    destruct (go_bounds t y x1 f1 S ltac:(lra)) as [G _].
    destruct (Req_EM_T x0 x); lra.
  - lra.
  - apply IH; auto. lra.
Qed.

Lemma interp_bounds : forall x xs fs lo hi, increasing (combine xs fs) -> combine xs fs <> [] ->
    (forall f, In f fs -> lo <= f <= hi) -> lo <= interp x xs fs <= hi.
Proof.
  intros x xs fs lo hi Hi Hn Hf. unfold interp. destruct (combine xs fs) as [|[x0 f0] t] eqn:Hc; [congruence|].
  assert (Hall : forall p, In p ((x0, f0) :: t) -> lo <= snd p <= hi).
  { intros [a b] Hp. rewrite <- Hc in Hp. apply Hf. eapply in_combine_r; eauto. }
  pose proof (Hall _ (or_introl eq_refl)) as H0. cbn in H0.
  destruct (Rlt_dec x x0); auto. destruct (go_bounds t x x0 f0 Hi ltac:(lra)) as [G1 G2].
  split; [lra|]. apply G2. intros p Hp. apply Hall; auto.
Qed.
Lemma interp_mono : forall x y xs fs, increasing (combine xs fs) -> x <= y -> interp x xs fs <= interp y xs fs.
Proof.
  intros x y xs fs Hi Hxy. unfold interp. destruct (combine xs fs) as [|[x0 f0] t]; [lra|].
  destruct (Rlt_dec x x0) as [H1|H1]; destruct (Rlt_dec y x0) as [H2|H2]; try lra.
  - apply go_bounds; auto. lra.
  - apply go_mono; auto. lra.
Qed.
Lemma interp_affine : forall a b x xs fs, combine xs fs <> [] ->
    interp x xs (map (fun f => a * f + b) fs) = a * interp x xs fs + b.
Proof.
  intros a b x xs fs Hn. unfold interp.
  assert (Hc : forall (u v : list R), combine u (map (fun f => a * f + b) v) = map (fun p => (fst p, a * snd p + b)) (combine u v)).
  { induction u as [|p u IH]; intros [|q v]; cbn; auto. f_equal. auto. }
  rewrite Hc. destruct (combine xs fs) as [|[x0 f0] t]; [congruence|]. cbn [map fst snd].
  destruct (Rlt_dec x x0); auto. clear. revert x0 f0. induction t as [|[x1 f1] t IH]; intros x0 f0; cbn [map interp_go fst snd]; auto.
  destruct (Rlt_dec x x1); auto. destruct (Req_EM_T x0 x); auto. unfold Rdiv. ring.
Qed.

(** Value of the interpolation in each interval, for increasing [xs]. *)
Lemma interp_go_at : forall t x x0 f0 j,
    StronglySorted (fun a b : R * R => fst a < fst b) ((x0, f0) :: t) ->
    (j < length t)%nat ->
    fst (nth j ((x0, f0) :: t) (0, 0)) <= x -> x < fst (nth j t (0, 0)) ->
    interp_go x x0 f0 t =
    (snd (nth j t (0, 0)) - snd (nth j ((x0, f0) :: t) (0, 0))) /
    (fst (nth j t (0, 0)) - fst (nth j ((x0, f0) :: t) (0, 0))) *
    (x - fst (nth j ((x0, f0) :: t) (0, 0))) + snd (nth j ((x0, f0) :: t) (0, 0)).
Proof.
  induction t as [|[x1 f1] t IH]; intros x x0 f0 j Hs Hj Hx Hx'; cbn [length] in Hj; [lia|].
  apply StronglySorted_inv in Hs as [SS FF]. cbn [interp_go]. destruct j as [|j].
  - cbn [nth fst snd] in *. destruct (Rlt_dec x x1); [|lra].
    destruct (Req_EM_T x0 x) as [<-|]; auto. replace (x0 - x0) with 0 by lra. lra.
  - change (nth (S j) ((x0, f0) :: (x1, f1) :: t) (0, 0)) with (nth j ((x1, f1) :: t) (0, 0)) in *.
    change (nth (S j) ((x1, f1) :: t) (0, 0)) with (nth j t (0, 0)) in *.
    destruct (Rlt_dec x x1) as [Hlt|].
    + exfalso. assert (x1 <= fst (nth j ((x1, f1) :: t) (0, 0))); [|lra].
      destruct j as [|j]; cbn [nth fst]; [lra|]. apply StronglySorted_inv in SS as [S' F'].
      rewrite Forall_forall in F'. assert (Hin : In (nth j t (0, 0)) t) by (apply nth_In; lia).
      specialize (F' _ Hin). cbn in F'. lra.
    + apply (IH x x1 f1 j SS); auto. lia.
Qed.
Lemma interp_go_last : forall t x x0 f0,
    StronglySorted (fun a b : R * R => fst a < fst b) ((x0, f0) :: t) ->
    fst (last ((x0, f0) :: t) (0, 0)) <= x ->
    interp_go x x0 f0 t = snd (last ((x0, f0) :: t) (0, 0)).
Proof.
  induction t as [|[x1 f1] t IH]; intros x x0 f0 Hs Hx; auto.
  apply StronglySorted_inv in Hs as [S F]. cbn [interp_go].
  change (last ((x0, f0) :: (x1, f1) :: t) (0, 0)) with (last ((x1, f1) :: t) (0, 0)) in *.
  destruct (Rlt_dec x x1) as [Hlt|].
  - exfalso. assert (x1 <= fst (last ((x1, f1) :: t) (0, 0))); [|lra].
    assert (Hin : In (last ((x1, f1) :: t) (0, 0)) ((x1, f1) :: t)).
    { rewrite last_nth. apply nth_In. cbn. lia. }
    destruct Hin as [<-|Hin]; [cbn; lra|]. apply StronglySorted_inv in S as [_ F'].
    rewrite Forall_forall in F'. specialize (F' _ Hin). cbn [fst] in F'. lra.
  - apply IH; auto.
Qed.
Lemma interp_at : forall xs fs x j,
    length xs = length fs -> (forall i k, (i < k < length xs)%nat -> nth i xs 0 < nth k xs 0) ->
    (S j < length xs)%nat -> nth j xs 0 <= x < nth (S j) xs 0 ->
    interp x xs fs = (nth (S j) fs 0 - nth j fs 0) / (nth (S j) xs 0 - nth j xs 0) * (x - nth j xs 0) + nth j fs 0.
Proof.
  intros xs fs x j Hl Hs Hj Hx. unfold interp.
  assert (Hn : forall i, nth i (combine xs fs) (0, 0) = (nth i xs 0, nth i fs 0)) by (intros; apply combine_nth; auto).
  assert (Hlc : length (combine xs fs) = length xs) by (rewrite combine_length; lia).
  assert (Hss : StronglySorted (fun a b : R * R => fst a < fst b) (combine xs fs)).
  { assert (Hg : forall l : list (R * R), (forall i k, (i < k < length l)%nat -> fst (nth i l (0, 0)) < fst (nth k l (0, 0))) ->
               StronglySorted (fun a b : R * R => fst a < fst b) l).
    { induction l as [|p l IH]; intros H; constructor.
      - apply IH. intros i k Hik. apply (H (S i) (S k)). cbn [length]. lia.
      - rewrite Forall_forall. intros q Hq. destruct (In_nth _ _ (0, 0) Hq) as (k & Hk & <-).
        apply (H 0%nat (S k)). cbn [length]. lia. }
    apply Hg. intros i k Hik. rewrite !Hn. apply Hs. lia. }
  pose proof (Hn j) as Hnj. pose proof (Hn (S j)) as HnS. pose proof (Hn 0%nat) as Hn0.
  destruct (combine xs fs) as [|[x0 f0] t] eqn:Hc; [cbn in Hlc; lia|].
  cbn [nth] in Hn0, HnS. cbn [length] in Hlc.
  destruct (Rlt_dec x x0) as [Hlt|].
  - exfalso. injection Hn0 as E1 E2. assert (nth 0 xs 0 <= nth j xs 0); [|lra].
    destruct j; [lra|]. apply Rlt_le, Hs. lia.
  - rewrite (interp_go_at t x x0 f0 j); auto; try lia; rewrite ?Hnj, ?HnS; cbn [fst snd]; try lra.
Qed.
Lemma interp_end : forall xs fs x,
    length xs = length fs -> (forall i k, (i < k < length xs)%nat -> nth i xs 0 < nth k xs 0) ->
    xs <> [] -> nth (length xs - 1) xs 0 <= x -> interp x xs fs = nth (length xs - 1) fs 0.
Proof.
  intros xs fs x Hl Hs Hne Hx. unfold interp.
  assert (Hn : forall i, nth i (combine xs fs) (0, 0) = (nth i xs 0, nth i fs 0)) by (intros; apply combine_nth; auto).
  assert (Hlc : length (combine xs fs) = length xs) by (rewrite combine_length; lia).
  assert (Hss : StronglySorted (fun a b : R * R => fst a < fst b) (combine xs fs)).
  { assert (Hg : forall l : list (R * R), (forall i k, (i < k < length l)%nat -> fst (nth i l (0, 0)) < fst (nth k l (0, 0))) ->
               StronglySorted (fun a b : R * R => fst a < fst b) l).
    { induction l as [|p l IH]; intros H; constructor.
      - apply IH. intros i k Hik. apply (H (S i) (S k)). cbn [length]. lia.
      - rewrite Forall_forall. intros q Hq. destruct (In_nth _ _ (0, 0) Hq) as (k & Hk & <-).
        apply (H 0%nat (S k)). cbn [length]. lia. }
    apply Hg. intros i k Hik. rewrite !Hn. apply Hs. lia. }
  pose proof (Hn (length xs - 1)%nat) as Hnj. pose proof (Hn 0%nat) as Hn0.
  destruct (combine xs fs) as [|[x0 f0] t] eqn:Hc; [destruct xs; [congruence|cbn in Hlc; lia]|].
  cbn [nth] in Hn0. injection Hn0 as E1 E2.
  assert (Hlast : last ((x0, f0) :: t) (0, 0) = (nth (length xs - 1) xs 0, nth (length xs - 1) fs 0)).
  { rewrite last_nth, <- Hnj. f_equal. lia. }
  destruct (Rlt_dec x x0) as [Hlt|].
  - exfalso. assert (nth 0 xs 0 <= nth (length xs - 1) xs 0); [|lra].
    destruct (length xs - 1)%nat eqn:He; [lra|]. apply Rlt_le, Hs. lia.
  - rewrite interp_go_last; auto; rewrite Hlast; auto.
Qed.

(** ** weighted_quantile *)

Lemma take_length : forall A (d : A) l idx, length (take d l idx) = length idx.
Proof. intros. unfold take. apply map_length. Qed.
Lemma take_perm : forall (l : list R) idx, Permutation idx (seq 0 (length l)) -> Permutation (take 0 l idx) l.
Proof.
  intros l idx H. unfold take. rewrite H.
  assert (He : map (fun i => nth i l 0) (seq 0 (length l)) = l).
  { apply nth_ext with 0 0; rewrite map_length, seq_length; auto. intros i Hi. apply nth_map_seq; auto. }
  rewrite He. auto.
Qed.
Lemma nth_take : forall (l : list R) idx i, (i < length idx)%nat -> nth i (take 0 l idx) 0 = nth (nth i idx 0%nat) l 0.
Proof. intros. unfold take. rewrite (map_nth_in _ _ _ _ 0%nat) by auto. auto. Qed.

(** Positions of the quantiles. *)
Definition positions (weights : list R) (inds : list nat) : list R :=
  map (fun x => x / rsum weights)
      (map2 Rminus (cumsum (take 0 weights inds)) (map (Rmult (/ 2)) (take 0 weights inds))).
Lemma positions_length : forall ws inds, length (positions ws inds) = length inds.
Proof.
  intros. unfold positions. rewrite map_length, map2_length, cumsum_length, map_length, take_length. lia.
Qed.
Lemma nth_positions : forall ws inds i, (i < length inds)%nat ->
    nth i (positions ws inds) 0 =
    (rsum (firstn i (take 0 ws inds)) + nth i (take 0 ws inds) 0 / 2) / rsum ws.
Proof.
  intros ws inds i Hi. unfold positions.
  rewrite (map_nth_in _ _ _ _ 0) by (rewrite map2_length, cumsum_length, map_length, take_length; lia).
  rewrite (nth_map2 _ _ _ _ _ _ _ 0 0) by (rewrite ?cumsum_length, ?map_length, ?take_length; lia).
  rewrite nth_cumsum, rsum_firstn_S by (rewrite take_length; auto).
  rewrite (map_nth_in _ _ _ _ 0) by (rewrite take_length; auto). f_equal. lra.
Qed.
Lemma positions_increasing : forall ws inds, Permutation inds (seq 0 (length ws)) ->
    (forall w, In w ws -> 0 < w) ->
    forall i k, (i < k < length inds)%nat -> nth i (positions ws inds) 0 < nth k (positions ws inds) 0.
Proof.
  intros ws inds Hp Hw.
  assert (Hs : ws <> [] -> 0 < rsum ws) by (intros; apply rsum_pos; auto).
  assert (Hst : forall i, (i < length inds)%nat -> 0 < nth i (take 0 ws inds) 0).
  { intros i Hi. apply Hw. apply (Permutation_in _ (take_perm ws inds Hp)). apply nth_In.
    rewrite take_length. auto. }
  assert (Hstep : forall i, (S i < length inds)%nat -> nth i (positions ws inds) 0 < nth (S i) (positions ws inds) 0).
  { intros i Hi. rewrite !nth_positions by lia. rewrite rsum_firstn_S by (rewrite take_length; lia).
    assert (H0 : ws <> []).
    { intros ->. apply Permutation_sym, Permutation_nil in Hp. subst. cbn in Hi. lia. }
    pose proof (Hst i ltac:(lia)). pose proof (Hst (S i) ltac:(lia)).
    unfold Rdiv. apply Rmult_lt_compat_r; [apply Rinv_0_lt_compat; auto|]. lra. }
  intros i k [Hik Hk]. induction k as [|k IH]; [lia|].
  destruct (Nat.eq_dec i k) as [->|]; [apply Hstep; auto|].
  apply Rlt_trans with (nth k (positions ws inds) 0); [apply IH; lia|apply Hstep; auto].
Qed.
Lemma quantile_points : forall srt values ws, sorts srt -> length values = length ws ->
    (forall w, In w ws -> 0 < w) ->
    increasing (combine (positions ws (srt values)) (take 0 values (srt values))).
Proof.
  intros srt values ws [S1 S2] Hl Hw.
  assert (Hlen : length (srt values) = length values) by (rewrite (Permutation_length (S1 values)), seq_length; auto).
  assert (Hg : forall l : list (R * R), (forall i k, (i < k < length l)%nat ->
      fst (nth i l (0, 0)) < fst (nth k l (0, 0)) /\ snd (nth i l (0, 0)) <= snd (nth k l (0, 0))) -> increasing l).
  { induction l as [|p l IH]; intros H; constructor.
    - apply IH. intros i k Hik. apply (H (S i) (S k)). cbn [length]. lia.
    - rewrite Forall_forall. intros q Hq. destruct (In_nth _ _ (0, 0) Hq) as (k & Hk & <-).
      apply (H 0%nat (S k)). cbn [length]. lia. }
  apply Hg. intros i k Hik. rewrite combine_length, positions_length, take_length, Nat.min_id in Hik.
  rewrite !combine_nth by (rewrite positions_length, take_length; auto). cbn [fst snd]. split.
  - apply positions_increasing; auto. rewrite <- Hl. auto.
  - rewrite !nth_take by lia. apply S2. lia.
Qed.
Lemma weighted_quantile_run : forall srt p values ws, 0 < p < 1 -> length values = length ws ->
    weighted_quantile srt p values ws = Ok (interp p (positions ws (srt values)) (take 0 values (srt values))).
Proof.
  intros srt p values ws Hp Hl. unfold weighted_quantile.
  destruct (Rlt_dec 0 p); [|lra]. destruct (Rlt_dec p 1); [|lra]. cbn [assertb rbind].
  rewrite Hl, Nat.eqb_refl. reflexivity.
Qed.

(** Sorting of reals is unique. *)
Lemma sorted_unique_R : forall a b : list R, Permutation a b -> StronglySorted Rle a -> StronglySorted Rle b -> a = b.
Proof.
  induction a as [|x a IH]; intros b Hp Ha Hb.
  - apply Permutation_nil in Hp. auto.
  - destruct b as [|y b]; [apply Permutation_sym, Permutation_nil in Hp; discriminate|].
    apply StronglySorted_inv in Ha as [SA FA]. apply StronglySorted_inv in Hb as [SB FB].
    rewrite Forall_forall in *.
    assert (x = y) as ->.
    { assert (Hx : In x (y :: b)) by (apply (Permutation_in _ Hp); left; auto).
      assert (Hy : In y (x :: a)) by (apply (Permutation_in _ (Permutation_sym Hp)); left; auto).
      destruct Hx as [->|Hx]; auto. destruct Hy as [->|Hy]; auto.
      specialize (FA _ Hy). specialize (FB _ Hx). lra. }
    f_equal. apply IH; auto. apply Permutation_cons_inv in Hp. auto.
Qed.
Lemma ssorted_nth_R : forall l, (forall i k, (i < k < length l)%nat -> nth i l 0 <= nth k l 0) -> StronglySorted Rle l.
Proof.
  induction l as [|p l IH]; intros H; constructor.
  - apply IH. intros i k Hik. apply (H (S i) (S k)). cbn [length]. lia.
  - rewrite Forall_forall. intros q Hq. destruct (In_nth _ _ 0 Hq) as (k & Hk & <-).
    apply (H 0%nat (S k)). cbn [length]. lia.
Qed.
Lemma sorted_values : forall srt values s, sorts srt -> Permutation s values -> StronglySorted Rle s ->
    take 0 values (srt values) = s.
Proof.
  intros srt values s [S1 S2] Hp Hs. apply sorted_unique_R; auto.
  - rewrite take_perm by auto. apply Permutation_sym; auto.
  - apply ssorted_nth_R. intros i k Hik. rewrite take_length in Hik.
    rewrite !nth_take by lia. apply S2.
    rewrite (Permutation_length (S1 values)), seq_length in Hik. auto.
Qed.
