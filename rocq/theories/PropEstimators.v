(** C34 - C37: estimators. *)
From Coq Require Import Lra.
From Verif Require Import Base ModelRun ModelReal ProofBase SpecReal ProofReal ProofInterp ProofParallel PropWeights.
Local Open Scope R_scope.

(** Column [k] of theta, counted from the end if negative. *)
Definition ndim (th : list (list Z)) : Z := Z.of_nat (length (hd [] th)).
Definition entry (th : list (list Z)) (k : Z) (i : nat) : R :=
  fval (nth (Z.to_nat (k mod ndim th)) (nth i th []) 0%Z).

Lemma column_entry : forall th k, (- ndim th <= k < ndim th)%Z ->
    exists x, column th k = Ok x /\ length x = length th /\
              forall i, (i < length th)%nat -> nth i x 0 = entry th k i.
Proof.
  intros th k Hk. unfold column. fold (ndim th).
  destruct (Z.leb_spec (- ndim th) k); [|lia]. destruct (Z.ltb_spec k (ndim th)); [|lia]. cbn [andb].
  eexists. split; [reflexivity|]. split; [apply map_length|]. intros i Hi.
  rewrite (map_nth_in _ _ _ _ []) by auto. unfold entry. do 3 f_equal.
  destruct (Z.ltb_spec k 0).
  - rewrite <- (Z.mod_small (k + ndim th) (ndim th)) by lia.
    rewrite <- (Z.mul_1_l (ndim th)) at 1. apply Z.mod_add. lia.
  - symmetry. apply Z.mod_small. lia.
Qed.
Lemma column_out : forall th k, ~ (- ndim th <= k < ndim th)%Z -> column th k = Raise IndexError.
Proof.
  intros th k Hk. unfold column. fold (ndim th).
  destruct (Z.leb_spec (- ndim th) k); destruct (Z.ltb_spec k (ndim th)); auto. lia.
Qed.

(** A run for which weights can be computed. *)
Definition weighable (r : run) (sim : option (list R)) : Prop :=
  logl r <> [] /\ length (nlive_array r) = length (logl r) /\ length (theta r) = length (logl r) /\
  (forall n, In n (nlive_array r) -> (0 < n)%Z) /\ draws_ok sim (length (nlive_array r)).
Lemma weighable_logw : forall r sim, weighable r sim -> exists logw, get_logw r sim = Ok logw /\ logw <> [] /\
    length logw = length (logl r).
Proof.
  intros r sim (H1 & H2 & H3 & H4 & H5).
  assert (Hn : nlive_array r <> []).
  { intros H. rewrite H in H2. destruct (logl r); [congruence|discriminate]. }
  destruct (get_logw_run r sim Hn H4 H2 H5) as (logw & Hw). exists logw. split; auto.
  destruct (get_logw_facts _ _ _ Hw H5) as (K1 & K2 & K3 & K4 & _). split; auto.
  intros ->. destruct (logl r); [congruence|discriminate].
Qed.

(** ** C34 *)

Theorem C34_posterior_means : forall r sim k h, weighable r sim ->
    (- ndim (theta r) <= k < ndim (theta r))%Z ->
    exists m s rm, param_mean k h r None sim = Ok (Some m) /\
      param_squared_mean k r None sim = Ok (Some s) /\ r_mean r None sim = Ok (Some rm) /\
      (forall lo hi, (forall i, (i < length (logl r))%nat -> lo <= entry (theta r) k i <= hi) -> lo <= m <= hi) /\
      m ^ 2 <= s /\ Rabs m <= rm.
Proof.
  intros r sim k h Hwt Hk. destruct (weighable_logw r sim Hwt) as (logw & Hw & Hn & Hlw).
  destruct Hwt as (H1 & H2 & H3 & H4 & H5).
  destruct (column_entry _ _ Hk) as (x & Hx & Hlx & Hnx).
  assert (Hm : exists m, param_mean k h r None sim = Ok (Some m)).
  { unfold param_mean, logw_of. rewrite Hw, Hx. cbn. eauto. }
  assert (Hs : exists m, param_squared_mean k r None sim = Ok (Some m)).
  { unfold param_squared_mean, logw_of. rewrite Hw, Hx. cbn. eauto. }
  destruct Hm as [m Hm]. destruct Hs as [s Hs].
  destruct (C33_estimators_unnormalised r sim logw k h x m s) as (E1 & E2 & E3); auto.
  set (n := length (logl r)) in *. set (w := fun i => exp (nth i logw 0)) in *.
  assert (Hpos : (0 < n)%nat) by (unfold n; destruct (logl r); [congruence|cbn; lia]).
  eexists m, s, _. split; auto. split; auto. split; [apply E3|]. split; [|split].
  - intros lo hi Hb. rewrite E1. apply average_bounds; auto. intros i Hi. split; [apply exp_pos|].
    rewrite Hnx by lia. auto.
  - rewrite E1, E2. apply average_square; auto. intros. apply exp_pos.
  - rewrite E1.
    assert (Hrad : forall i, (i < n)%nat -> Rabs (nth i x 0) <= nth i (radii (theta r)) 0).
    { intros i Hi. rewrite Hnx by lia. unfold radii. rewrite (map_nth_in _ _ _ _ []) by lia.
      unfold entry. set (row := nth i (theta r) []). set (j := Z.to_nat (k mod ndim (theta r))).
      rewrite <- sqrt_Rsqr_abs. apply sqrt_le_1_alt. unfold Rsqr.
      destruct (Nat.lt_ge_cases j (length row)) as [Hj|Hj].
      - assert (Hg : forall l, In (nth j row 0%Z) l -> fval (nth j row 0%Z) * fval (nth j row 0%Z) <=
                      rsum (map (fun z => fval z ^ 2) l)).
        { induction l as [|z l IH]; intros Hin; [destruct Hin|]. cbn [map]. rewrite rsum_cons.
          assert (0 <= rsum (map (fun z => fval z ^ 2) l)).
          { apply rsum_nonneg. intros y Hy. apply in_map_iff in Hy as (u & <- & _). apply pow2_ge_0. }
          destruct Hin as [->|Hin]; [rewrite <- Rsqr_pow2; unfold Rsqr; lra|].
          specialize (IH Hin). assert (0 <= fval z ^ 2) by apply pow2_ge_0. lra. }
        apply Hg, nth_In. auto.
      - rewrite nth_overflow by auto. replace (fval 0) with 0 by (unfold fval; lra). rewrite Rmult_0_l.
        apply rsum_nonneg. intros y Hy. apply in_map_iff in Hy as (u & <- & _). apply pow2_ge_0. }
    apply Rabs_le. split.
    + replace (- average n w (fun i => nth i (radii (theta r)) 0)) with
        (average n w (fun i => -1 * nth i (radii (theta r)) 0 + 0 * 0)) by (rewrite (average_linear n w _ (fun _ => 0)); lra).
      apply average_le; auto. intros i Hi. split; [apply exp_pos|]. specialize (Hrad i Hi).
      pose proof (Rle_abs (- nth i x 0)). rewrite Rabs_Ropp in H. lra.
    + apply average_le; auto. intros i Hi. split; [apply exp_pos|]. specialize (Hrad i Hi).
      pose proof (Rle_abs (nth i x 0)). lra.
Qed.
Print Assumptions C34_posterior_means.

(** Rescaling and shifting a parameter. *)
Theorem C34_mean_affine : forall r sim k h a b m, weighable r sim ->
    (- ndim (theta r) <= k < ndim (theta r))%Z ->
    (forall row, In row (theta r) -> Z.of_nat (length row) = ndim (theta r)) ->
    param_mean k h r None sim = Ok (Some m) ->
    param_mean k h (mkRun (logl r) (map (map (fun z => (a * z + b)%Z)) (theta r)) (nlive_array r)
                          (thread_labels r) (thread_min_max r) (output r) (settings r)) None sim =
    Ok (Some (IZR a * m + fval b)).
Proof.
  intros r sim k h a b m Hwt Hk Hrow Hm.
  set (r' := mkRun _ _ _ _ _ _ _).
  assert (Hwt' : weighable r' sim).
  { destruct Hwt as (H1 & H2 & H3 & H4 & H5). unfold weighable, r'. cbn [logl theta nlive_array].
    rewrite map_length. auto. }
  assert (Hnd : ndim (theta r') = ndim (theta r)).
  { unfold ndim, r'. cbn [theta]. destruct (theta r); cbn; auto. rewrite map_length. auto. }
  assert (Hlw : get_logw r' sim = get_logw r sim) by reflexivity.
  destruct (weighable_logw r sim Hwt) as (logw & Hw & Hn & Hll).
  destruct Hwt as (H1 & H2 & H3 & H4 & H5).
  destruct (column_entry _ _ Hk) as (x & Hx & Hlx & Hnx).
  assert (Hk' : (- ndim (theta r') <= k < ndim (theta r'))%Z) by (rewrite Hnd; auto).
  destruct (column_entry _ _ Hk') as (x' & Hx' & Hlx' & Hnx').
  assert (Hs : exists m, param_squared_mean k r None sim = Ok (Some m)).
  { unfold param_squared_mean, logw_of. rewrite Hw, Hx. cbn. eauto. }
  assert (Hs' : exists m, param_squared_mean k r' None sim = Ok (Some m)).
  { unfold param_squared_mean, logw_of. rewrite Hlw, Hw, Hx'. cbn. eauto. }
  assert (Hm' : exists m, param_mean k h r' None sim = Ok (Some m)).
  { unfold param_mean, logw_of. rewrite Hlw, Hw, Hx'. cbn. eauto. }
  destruct Hs as [s Hs], Hs' as [s' Hs'], Hm' as [m' Hm']. rewrite Hm'. do 2 f_equal.
  destruct (C33_estimators_unnormalised r sim logw k h x m s) as (E1 & _ & _); auto.
  destruct (C33_estimators_unnormalised r' sim logw k h x' m' s') as (E1' & _ & _); auto.
  { unfold r'. cbn [theta logl]. rewrite map_length. auto. }
  rewrite E1, E1'. change (length (logl r')) with (length (logl r)).
  assert (Hpos : (0 < length (logl r))%nat) by (destruct (logl r); [congruence|cbn; lia]).
  rewrite <- (average_const (length (logl r)) (fun i => exp (nth i logw 0)) (fval b)) by (auto; intros; apply exp_pos).
  rewrite <- (Rmult_1_l (average _ _ (fun _ => fval b))), <- average_linear. apply average_ext.
  intros i Hi. assert (Hi' : (i < length (theta r'))%nat) by (unfold r'; cbn [theta]; rewrite map_length; lia).
  rewrite Hnx, Hnx' by lia. unfold entry. rewrite Hnd. unfold r'. cbn [theta].
  rewrite (map_nth_in _ _ _ _ []) by lia.
  assert (Hrl : Z.of_nat (length (nth i (theta r) [])) = ndim (theta r)) by (apply Hrow, nth_In; lia).
  assert (Hmod : (0 <= k mod ndim (theta r) < ndim (theta r))%Z) by (apply Z.mod_pos_bound; lia).
  rewrite (map_nth_in _ _ _ _ 0%Z) by lia. unfold fval. rewrite plus_IZR, mult_IZR. lra.
Qed.
Print Assumptions C34_mean_affine.

Theorem C34_param_ind_out_of_range : forall r sim k h p srt, weighable r sim ->
    ~ (- ndim (theta r) <= k < ndim (theta r))%Z ->
    param_mean k h r None sim = (if h then Ok None else Raise IndexError) /\
    param_squared_mean k r None sim = Raise IndexError /\
    param_cred srt p k r None sim = Raise IndexError.
Proof.
  intros r sim k h p srt Hwt Hk. destruct (weighable_logw r sim Hwt) as (logw & Hw & _).
  unfold param_mean, param_squared_mean, param_cred, logw_of. rewrite Hw, column_out by auto.
  cbn. destruct h; auto.
Qed.
Print Assumptions C34_param_ind_out_of_range.
Example C34_example : weighable run_w None /\ (- ndim (theta run_w) <= 0 < ndim (theta run_w))%Z /\
    ~ (- ndim (theta run_w) <= 1 < ndim (theta run_w))%Z /\
    forall row, In row (theta run_w) -> Z.of_nat (length row) = ndim (theta run_w).
Proof.
  split; [|split; [|split]].
  - unfold weighable. split; [discriminate|]. split; auto. split; auto. split; [|exact I].
    intros n [<-|[<-|[<-|[<-|[]]]]]; lia.
  - unfold ndim, run_w; cbn; lia.
  - unfold ndim, run_w; cbn; lia.
  - intros row [<-|[<-|[<-|[<-|[]]]]]; reflexivity.
Qed.

(** ** C35 *)

(** For positive weights the quantile lies between the extreme values, does not
    decrease with the probability, passes through each sample at the middle of
    its share of the weight, and is unchanged by scaling the weights. *)
Theorem C35_weighted_quantile : forall srt values ws, sorts srt ->
    length values = length ws -> values <> [] -> (forall w, In w ws -> 0 < w) ->
    exists q : R -> R,
      (forall p, 0 < p < 1 -> weighted_quantile srt p values ws = Ok (q p)) /\
      (forall lo hi p, (forall v, In v values -> lo <= v <= hi) -> lo <= q p <= hi) /\
      (forall p p', p <= p' -> q p <= q p') /\
      (forall k, (k < length values)%nat ->
         let before := map (fun j => nth (nth j (srt values) 0%nat) ws 0) (seq 0 k) in
         let own := nth (nth k (srt values) 0%nat) ws 0 in
         q ((sumR before + own / 2) / sumR ws) = nth (nth k (srt values) 0%nat) values 0) /\
      (forall c p, 0 < c -> 0 < p < 1 -> weighted_quantile srt p values (map (Rmult c) ws) = Ok (q p)).
Proof.
  intros srt values ws Hs Hl Hne Hw.
  pose proof (quantile_points srt values ws Hs Hl Hw) as Hinc.
  assert (S1 := proj1 Hs values).
  assert (Hlen : length (srt values) = length values) by (rewrite (Permutation_length S1), seq_length; auto).
  exists (fun p => interp p (positions ws (srt values)) (take 0 values (srt values))).
  assert (Hcne : combine (positions ws (srt values)) (take 0 values (srt values)) <> []).
  { intros H. apply (f_equal (@length _)) in H. rewrite combine_length, positions_length, take_length, Hlen in H.
    destruct values; [congruence|cbn in H; lia]. }
  split; [intros; apply weighted_quantile_run; auto|]. split; [|split; [|split]].
  - intros lo hi p Hv. apply interp_bounds; auto. intros f Hf. apply Hv.
    apply (Permutation_in _ (take_perm values (srt values) S1)). auto.
  - intros p p' Hp. apply interp_mono; auto.
  - intros k Hk before own.
    assert (Hpk : (sumR before + own / 2) / sumR ws = nth k (positions ws (srt values)) 0).
    { rewrite nth_positions by lia. f_equal. unfold own. rewrite nth_take by lia. f_equal.
      change sumR with rsum. f_equal. unfold before.
      apply nth_ext with 0 0; rewrite map_length, seq_length.
      - rewrite firstn_length, take_length. lia.
      - intros i Hi. rewrite nth_map_seq by auto.
        rewrite <- nth_take by lia. rewrite <- (firstn_skipn k (take 0 ws (srt values))) at 1.
        rewrite app_nth1; auto. rewrite firstn_length, take_length. lia. }
    rewrite Hpk. assert (Hlp : length (positions ws (srt values)) = length (take 0 values (srt values))).
    { rewrite positions_length, take_length. auto. }
    assert (Hmono : forall i k, (i < k < length (positions ws (srt values)))%nat ->
              nth i (positions ws (srt values)) 0 < nth k (positions ws (srt values)) 0).
    { intros i j Hij. rewrite positions_length in Hij. apply positions_increasing; auto. rewrite <- Hl. auto. }
    rewrite <- nth_take by lia.
    destruct (Nat.lt_ge_cases (S k) (length values)) as [Hlt|Hge].
    + rewrite (interp_at _ _ _ k); auto; rewrite ?positions_length; try lia.
      * replace (nth k (positions ws (srt values)) 0 - nth k (positions ws (srt values)) 0) with 0 by lra. lra.
      * split; [lra|]. apply Hmono. rewrite positions_length. lia.
    + rewrite interp_end; auto; rewrite ?positions_length.
      * f_equal. lia.
      * intros H. apply (f_equal (@length _)) in H. rewrite positions_length, Hlen in H. cbn in H. lia.
      * replace (length (srt values) - 1)%nat with k by lia. lra.
  - intros c p Hc Hp. rewrite weighted_quantile_run by (auto; rewrite map_length; auto). do 2 f_equal.
    apply nth_ext with 0 0; rewrite !positions_length; auto. intros i Hi.
    rewrite !nth_positions by auto.
    assert (Hsum : 0 < rsum ws) by (apply rsum_pos; auto; destruct ws; [destruct values; [congruence|discriminate]|discriminate]).
    assert (Hscale : forall l, rsum (map (Rmult c) l) = c * rsum l).
    { induction l as [|u l IH]; cbn [map]; rewrite ?rsum_cons, ?IH; [unfold rsum; cbn|]; lra. }
    assert (Htake : take 0 (map (Rmult c) ws) (srt values) = map (Rmult c) (take 0 ws (srt values))).
    { unfold take. rewrite map_map. apply map_ext_in. intros j Hj. apply (map_nth_in _ _ (Rmult c) 0 0).
      apply (Permutation_in _ S1) in Hj. apply in_seq in Hj. lia. }
    rewrite Htake, firstn_map, !Hscale. rewrite (map_nth_in _ _ _ _ 0) by (rewrite take_length; auto).
    field. split; lra.
Qed.
Print Assumptions C35_weighted_quantile.

(** Increasing affine maps of the values, for an argsort which only compares. *)
Theorem C35_quantile_affine : forall srt a b p values ws q, sorts srt -> compares srt -> 0 < a ->
    values <> [] -> weighted_quantile srt p values ws = Ok q ->
    weighted_quantile srt p (map (fun v => a * v + b) values) ws = Ok (a * q + b).
Proof.
  intros srt a b p values ws q Hs Hc Ha Hne Hq. unfold weighted_quantile in Hq.
  destruct (Rlt_dec 0 p); [|discriminate]. destruct (Rlt_dec p 1); [|discriminate].
  cbn [assertb rbind] in Hq. destruct (Nat.eqb_spec (length values) (length ws)) as [Hl|]; [|discriminate].
  cbn [assertb rbind] in Hq. fold (positions ws (srt values)) in Hq. injection Hq as <-.
  assert (S1 := proj1 Hs values).
  assert (Hsrt : srt (map (fun v => a * v + b) values) = srt values).
  { symmetry. apply Hc; [rewrite map_length; auto|]. intros i j Hi Hj.
    rewrite !(map_nth_in _ _ _ _ 0) by auto. split; intros; nra. }
  rewrite weighted_quantile_run by (auto; rewrite map_length; auto). rewrite Hsrt. f_equal.
  assert (Htake : take 0 (map (fun v => a * v + b) values) (srt values) =
                  map (fun v => a * v + b) (take 0 values (srt values))).
  { unfold take. rewrite map_map. apply map_ext_in. intros j Hj. apply (map_nth_in _ _ (fun v => a * v + b) 0 0).
    apply (Permutation_in _ S1) in Hj. apply in_seq in Hj. lia. }
  rewrite Htake. apply interp_affine. intros H. apply (f_equal (@length _)) in H.
  rewrite combine_length, positions_length, take_length, (Permutation_length S1), seq_length in H.
  destruct values; [congruence|cbn in H; lia].
Qed.
Print Assumptions C35_quantile_affine.

Theorem C35_quantile_rejects : forall srt p values ws,
    (p <= 0 \/ 1 <= p \/ length values <> length ws) ->
    weighted_quantile srt p values ws = Raise AssertionError.
Proof.
  intros srt p values ws H. unfold weighted_quantile.
  destruct (Rlt_dec 0 p); [|reflexivity]. destruct (Rlt_dec p 1); [|reflexivity]. cbn [assertb rbind].
  destruct (Nat.eqb_spec (length values) (length ws)) as [Hl|]; [|reflexivity].
  exfalso. destruct H as [H|[H|H]]; [lra|lra|auto].
Qed.
Print Assumptions C35_quantile_rejects.

(** An argsort on reals exists: insertion sort. *)
Fixpoint r_ins (l : list R) (i : nat) (js : list nat) : list nat :=
  match js with
  | [] => [i]
  | j :: t => if Rlt_dec (nth j l 0) (nth i l 0) then j :: r_ins l i t else i :: js
  end.
Definition r_isort (l : list R) : list nat := fold_right (r_ins l) [] (seq 0 (length l)).
Example r_isort_sorts : sorts r_isort /\ compares r_isort.
Proof.
  assert (Hperm : forall l i js, Permutation (r_ins l i js) (i :: js)).
  { induction js as [|j t IH]; cbn; auto. destruct (Rlt_dec _ _); auto. rewrite IH. apply perm_swap. }
  assert (Hp : forall l, Permutation (r_isort l) (seq 0 (length l))).
  { intros l. unfold r_isort. induction (seq 0 (length l)); cbn; auto. rewrite Hperm. auto. }
  split; [split; auto|].
  - intros l i j Hij.
    assert (Hs : StronglySorted (fun a b => nth a l 0 <= nth b l 0) (r_isort l)).
    { unfold r_isort. induction (seq 0 (length l)) as [|a t IH]; cbn; [constructor|].
      induction (fold_right (r_ins l) [] t) as [|b u IHu]; cbn; [repeat constructor|].
      apply StronglySorted_inv in IH as [SS FF]. destruct (Rlt_dec (nth b l 0) (nth a l 0)) as [Hlt|Hge].
      - constructor; [apply IHu; auto|]. rewrite Forall_forall in *. intros c Hc.
        apply (Permutation_in _ (Hperm l a u)) in Hc as [<-|Hc]; [lra|auto].
      - constructor; [constructor; auto|]. constructor; [lra|]. rewrite Forall_forall in *.
        intros c Hc. specialize (FF c Hc). lra. }
    assert (Hlen : length (r_isort l) = length l) by (rewrite (Permutation_length (Hp l)), seq_length; auto).
    assert (Hg : forall u i j, StronglySorted (fun a b => nth a l 0 <= nth b l 0) u -> (i < j < length u)%nat ->
              nth (nth i u 0%nat) l 0 <= nth (nth j u 0%nat) l 0).
    { induction u as [|a u IH]; intros i' j' Hu Hij'; [cbn in *; lia|].
      apply StronglySorted_inv in Hu as [SS FF]. rewrite Forall_forall in FF.
      destruct j' as [|j']; [lia|]. destruct i' as [|i']; cbn [nth length] in *.
      - apply FF, nth_In. lia.
      - apply IH; auto. lia. }
    apply Hg; auto. lia.
  - intros l l' Hl Hcmp. unfold r_isort. rewrite <- Hl.
    assert (Hins : forall i js, (i < length l)%nat -> (forall j, In j js -> (j < length l)%nat) ->
               r_ins l i js = r_ins l' i js).
    { induction js as [|j t IH]; intros Hi Hj; cbn; auto.
      assert (Hjl : (j < length l)%nat) by (apply Hj; left; auto).
      destruct (Rlt_dec (nth j l 0) (nth i l 0)) as [H1|H1]; destruct (Rlt_dec (nth j l' 0) (nth i l' 0)) as [H2|H2]; auto.
      - f_equal. apply IH; auto. intros; apply Hj; right; auto.
      - exfalso. apply H2, Hcmp; auto.
      - exfalso. apply H1, Hcmp; auto. }
    assert (Hin : forall u, (forall i, In i u -> (i < length l)%nat) ->
              fold_right (r_ins l) [] u = fold_right (r_ins l') [] u /\
              forall i, In i (fold_right (r_ins l) [] u) -> (i < length l)%nat).
    { induction u as [|a u IH]; intros Hu; cbn; [split; auto; intros i []|].
      destruct IH as [I1 I2]; [intros; apply Hu; right; auto|]. split.
      - rewrite <- I1. apply Hins; auto. apply Hu; left; auto.
      - intros i Hi. apply (Permutation_in _ (Hperm l a _)) in Hi as [<-|Hi]; auto. apply Hu; left; auto. }
    apply Hin. intros i Hi. apply in_seq in Hi. lia.
Qed.

(** ** C36 *)

(** [s] is the sorted list of values. *)
Theorem C36_median : forall srt values s c, sorts srt -> values <> [] -> 0 < c ->
    Permutation s values -> StronglySorted Rle s ->
    weighted_quantile srt (1 / 2) values (map (fun _ => c) values) =
    Ok (if Nat.odd (length values) then nth (length values / 2) s 0
        else (nth (length values / 2 - 1) s 0 + nth (length values / 2) s 0) / 2).
Proof.
  intros srt values s c Hs Hne Hc Hp Hss.
  set (n := length values). assert (Hn : (0 < n)%nat) by (unfold n; destruct values; [congruence|cbn; lia]).
  set (ws := map (fun _ => c) values).
  assert (Hlw : length values = length ws) by (unfold ws; rewrite map_length; auto).
  rewrite weighted_quantile_run by (auto; lra). f_equal.
  rewrite (sorted_values srt values s) by auto.
  assert (S1 := proj1 Hs values).
  assert (Hlen : length (srt values) = n) by (rewrite (Permutation_length S1), seq_length; auto).
  assert (Hls : length s = n) by (rewrite (Permutation_length Hp); auto).
  assert (Htk : take 0 ws (srt values) = repeat c n).
  { apply nth_ext with 0 0; rewrite take_length, Hlen; [rewrite repeat_length; auto|].
    intros i Hi. rewrite nth_take by lia. rewrite (nth_indep (repeat c n) 0 c) by (rewrite repeat_length; auto).
    rewrite nth_repeat. unfold ws.
    assert (Hin : (nth i (srt values) 0 < length values)%nat).
    { assert (H : In (nth i (srt values) 0%nat) (seq 0 (length values))).
      { apply (Permutation_in _ S1). apply nth_In. lia. }
      apply in_seq in H. lia. }
    apply (map_nth_in _ _ (fun _ => c) 0 0). auto. }
  assert (Hrep : forall k, rsum (repeat c k) = INR k * c).
  { induction k as [|k IH]; cbn [repeat]; [unfold rsum; cbn; lra|]. rewrite rsum_cons, IH, S_INR. lra. }
  assert (Hsum : rsum ws = INR n * c) by (unfold ws; apply rsum_const).
  assert (Hpos : forall i, (i < n)%nat -> nth i (positions ws (srt values)) 0 = (INR i + 1 / 2) / INR n).
  { intros i Hi. rewrite nth_positions by lia. rewrite Htk, Hsum.
    assert (Hf : firstn i (repeat c n) = repeat c i).
    { replace n with (i + (n - i))%nat by lia. rewrite repeat_app, firstn_app, repeat_length, Nat.sub_diag.
      rewrite <- (repeat_length c i) at 1. rewrite firstn_all. cbn. apply app_nil_r. }
    rewrite Hf, Hrep. rewrite (nth_indep (repeat c n) 0 c) by (rewrite repeat_length; auto). rewrite nth_repeat.
    assert (0 < INR n) by (apply lt_0_INR; auto). field. split; lra. }
  assert (Hmono : forall i k, (i < k < length (positions ws (srt values)))%nat ->
              nth i (positions ws (srt values)) 0 < nth k (positions ws (srt values)) 0).
  { intros i j Hij. rewrite positions_length in Hij. apply positions_increasing; auto; [rewrite <- Hlw; auto|].
    intros w Hw. apply in_map_iff in Hw as (_ & <- & _). auto. }
  assert (Hlp : length (positions ws (srt values)) = length s) by (rewrite positions_length; lia).
  assert (Hnr : 0 < INR n) by (apply lt_0_INR; auto).
  destruct (Nat.odd n) eqn:Ho.
  - apply Nat.odd_spec in Ho as [m Hm].
    assert (Hd : (n / 2 = m)%nat) by (rewrite Hm; symmetry; apply (Nat.div_unique _ _ _ 1); lia).
    rewrite Hd.
    assert (Hhalf : 1 / 2 = nth m (positions ws (srt values)) 0).
    { rewrite Hpos by lia. assert (INR n = 2 * INR m + 1) by (rewrite Hm, plus_INR, mult_INR; cbn; lra).
      rewrite H. field. rewrite <- H. lra. }
    rewrite Hhalf. destruct (Nat.lt_ge_cases (S m) n) as [Hlt|Hge].
    + rewrite (interp_at _ _ _ m); auto; rewrite ?positions_length; try lia.
      * replace (nth m (positions ws (srt values)) 0 - nth m (positions ws (srt values)) 0) with 0 by lra. lra.
      * split; [lra|]. apply Hmono. rewrite positions_length. lia.
    + rewrite interp_end; auto; rewrite ?positions_length.
      * f_equal. lia.
      * intros H. apply (f_equal (@length _)) in H. rewrite positions_length in H. cbn in H. lia.
      * replace (length (srt values) - 1)%nat with m by lia. lra.
  - assert (He : Nat.even n = true) by (rewrite <- Nat.negb_odd, Ho; auto).
    apply Nat.even_spec in He as [m Hm].
    assert (Hd : (n / 2 = m)%nat) by (rewrite Hm; symmetry; apply (Nat.div_unique _ _ _ 0); lia).
    rewrite Hd. assert (HINR : INR n = 2 * INR m) by (rewrite Hm, mult_INR; cbn; lra).
    assert (Hm1 : INR (m - 1) = INR m - 1) by (rewrite minus_INR by lia; cbn; lra).
    rewrite (interp_at _ _ _ (m - 1)%nat); auto; rewrite ?positions_length; try lia;
      replace (S (m - 1)) with m by lia; rewrite !Hpos, Hm1, HINR by lia.
    + field. lra.
    + assert (0 < INR m) by lra. split.
      * apply Rmult_le_reg_r with (2 * INR m); [lra|]. unfold Rdiv. rewrite Rmult_assoc, Rinv_l by lra. lra.
      * apply Rmult_lt_reg_r with (2 * INR m); [lra|]. unfold Rdiv at 2. rewrite Rmult_assoc, Rinv_l by lra. lra.
Qed.
Print Assumptions C36_median.
Example C36_example : sorts r_isort /\ Permutation [1; 2; 5; 9] [5; 1; 9; 2] /\ StronglySorted Rle [1; 2; 5; 9].
Proof.
  split; [apply r_isort_sorts|]. split.
  - apply Permutation_sym. apply (Permutation_cons_app [1; 2] [9]). apply perm_skip. apply perm_swap.
  - repeat (constructor; try lra).
Qed.

(** ** C37 *)

Theorem C37_run_estimators : forall srt r sim logw l, get_logw r sim = Ok logw ->
    (forall vals, run_estimators srt r l sim = Ok vals <->
       Forall2 (fun e v => estimate srt e r None sim = Ok v) l vals) /\
    (forall e, run_estimators srt r l sim = Raise e ->
       exists l1 x l2, l = l1 ++ x :: l2 /\ estimate srt x r None sim = Raise e).
Proof.
  intros srt r sim logw l Hw. unfold run_estimators. rewrite Hw. cbn [rbind].
  assert (He : forall e, estimate srt e r (Some logw) None = estimate srt e r None sim).
  { intros e. destruct e; cbn; unfold logz, evidence, r_mean, param_mean, param_squared_mean, param_cred, r_cred, logw_of;
      rewrite ?Hw; reflexivity. }
  rewrite (mapM_ext_in _ _ _ (fun e => estimate srt e r None sim)) by auto. split.
  - intros vals. apply mapM_Ok.
  - intros e H. apply mapM_Raise in H as (l1 & x & l2 & H1 & H2 & _). eauto.
Qed.
Print Assumptions C37_run_estimators.
Example C37_example : forall srt, exists logw v, get_logw run_w None = Ok logw /\
    run_estimators srt run_w [CountSamples; Logz; ParamMean 3 true] None = Ok [Some 4; v; None] /\
    run_estimators srt run_w [CountSamples; ParamMean 3 false] None = Raise IndexError.
Proof.
  intros srt. eexists _, _. split; [reflexivity|]. split; [|reflexivity].
  unfold run_estimators. cbn. do 3 f_equal. lra.
Qed.
