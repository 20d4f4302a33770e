(** C57 and C56: root mean squared errors in the tables, and their gains. *)
From Coq Require Import Lra ListDec.
From Verif Require Import Base ModelRun ModelBoot ModelParallel ModelReal ModelStats Envs
     Spec SpecRun SpecReal ProofBase ProofMonad ProofDet ProofRun ProofBoot
     ProofReal ProofInterp ProofParallel ProofStats PropParallel PropEstimators PropErrors PropSummary PropTables.
Local Open Scope R_scope.

(** The root mean squared difference of the values [xs] from [t]; the standard
    error of the mean squared difference. *)
Definition root_mean_square (xs : list R) (t : R) : R := sqrt (mean (map (fun x => (x - t) ^ 2) xs)).
Definition mean_square_error (xs : list R) (t : R) : R :=
  sqrt (variance (map (fun x => (x - t) ^ 2) xs)) / sqrt (INR (length xs)).

Lemma mean_nonneg : forall xs, (forall x, In x xs -> 0 <= x) -> 0 <= mean xs.
Proof.
  intros xs H. unfold mean. change sumR with rsum. destruct xs as [|x xs].
  - cbn. unfold Rdiv. rewrite Rmult_0_l. lra.
  - apply Rmult_le_pos; [apply rsum_nonneg; auto|]. apply Rlt_le, Rinv_0_lt_compat. apply lt_0_INR. cbn. lia.
Qed.
Lemma np_nan : forall (f : list R -> fl) l, In None l ->
    match all_finite l with Some xs => f xs | None => None end = None.
Proof.
  intros f l H. replace (all_finite l) with (@None (list R)); auto. symmetry.
  induction l as [|[x|] l IH]; cbn in *; try tauto. destruct H as [H|H]; [discriminate|]. rewrite IH by auto. auto.
Qed.

(** ** C57: the rmse row of a summary *)
Theorem C57_rmse_row : forall py3 n cols tv out, summary_df py3 n cols (Some tv) true = Ok out ->
    forall j col t s, nth_error cols j = Some col -> nth_error tv j = Some t -> nth_error out j = Some s ->
    exists r u, s_rmse s = Some (r, u) /\
      (In None col \/ col <> [] /\ t = None -> r = None /\ u = None) /\
      (forall xs t', col = map Some xs -> t = Some t' -> (2 <= length xs)%nat ->
         r = Some (root_mean_square xs t') /\
         root_mean_square xs t' ^ 2 =
           (mean xs - t') ^ 2 + (INR (length xs) - 1) / INR (length xs) * variance xs /\
         (root_mean_square xs t' <> 0 -> u = Some (mean_square_error xs t' / (2 * root_mean_square xs t'))) /\
         (root_mean_square xs t' = 0 -> u = None)).
Proof.
  intros py3 n cols tv out H j col t s Hc Ht Hs. unfold summary_df in H.
  destruct (assertb _); [|discriminate]. cbn [rbind] in H.
  destruct (std_unc_factor py3 n) as [f|]; [|discriminate]. cbn [rbind] in H. injection H as <-.
  rewrite nth_error_map2 with (a := t) (b := col) in Hs by auto. injection Hs as <-.
  unfold summary_column. cbn [s_rmse option_map].
  destruct (rmse_and_unc col t) as [r u] eqn:Hru. exists r, u. split; auto. split.
  - intros Hnan. unfold rmse_and_unc in Hru.
    assert (Hin : In None (map (fun x => fsq (fsub x t)) col)).
    { destruct Hnan as [Hi|(Hne & ->)].
      - apply in_map_iff. exists None. auto.
      - destruct col as [|c col]; [congruence|]. left. destruct c; reflexivity. }
    unfold np_std, np_mean in Hru. rewrite !np_nan in Hru by auto. cbn in Hru. injection Hru as <- <-. auto.
  - intros xs t' -> -> Hx.
    destruct (C57_rmse xs t' Hx) as (r0 & u0 & Hr0 & Hp & Hsq & Hu).
    pose proof Hr0 as Hr1. rewrite Hru in Hr1. injection Hr1 as -> ->.
    set (sq := map (fun x => (x - t') ^ 2) xs).
    assert (Hq : map (fun x => fsq (fsub x (Some t'))) (map Some xs) = map Some sq).
    { unfold sq. rewrite !map_map. apply map_ext. intros. reflexivity. }
    assert (Hr : r0 = root_mean_square xs t').
    { unfold rmse_and_unc in Hr0. rewrite Hq in Hr0. unfold np_mean, np_std in Hr0. rewrite all_finite_some in Hr0.
      rewrite mean_mean_of in Hr0 by (unfold sq; intros He; apply map_eq_nil in He; subst; cbn in Hx; lia).
      cbn [lift1 option_map] in Hr0. injection Hr0 as <- _. reflexivity. }
    subst r0. split; auto. split; auto. split.
    + intros Hn. rewrite Hu by auto. reflexivity.
    + intros H0. unfold rmse_and_unc in Hr0. rewrite Hq in Hr0. unfold np_mean in Hr0. rewrite all_finite_some in Hr0.
      rewrite mean_mean_of in Hr0 by (unfold sq; intros He; apply map_eq_nil in He; subst; cbn in Hx; lia).
      cbn [lift1 option_map] in Hr0. apply (f_equal snd) in Hr0. cbn [snd] in Hr0. rewrite <- Hr0. change (sqrt (mean sq)) with (root_mean_square xs t').
      rewrite H0. unfold fdiv at 1. destruct (Req_EM_T 0 0); [|congruence]. reflexivity.
Qed.
Print Assumptions C57_rmse_row.

Example C57_rmse_row_example : exists out,
    summary_df true 2 [[Some 1; Some 3]; [Some 0; None]] (Some [Some 2; Some 0]) true = Ok out /\
    root_mean_square [1; 3] 2 = 1.
Proof.
  eexists. split; [reflexivity|]. unfold root_mean_square, mean, sumR. cbn [map fold_right length INR].
  replace (_ / _) with (1 : R) by (cbn; field). apply sqrt_1.
Qed.

(** ** C56: gains in rmse *)

(** The gain in rmse of a method is the ratio of the mean squared errors of the
    first method and its own times the ratio of the numbers of samples. *)
Theorem C56_rmse_gain : forall py3 names methods nest tv adj out,
    efficiency_gain_df py3 names methods nest (Some tv) true adj = Ok out ->
    forall i j v0 v a rows xs0 xs t, (0 < i)%nat ->
      nth_error methods 0 = Some v0 -> nth_error methods i = Some v ->
      option_map snd (nth_error out i) = Some rows -> nth_error tv j = Some (Some t) ->
      (forall l, adj = Some l ->
         exists n0 ni, nth 0 l None = Some n0 /\ nth i l None = Some ni /\ ni <> 0 /\ a = n0 / ni) ->
      (adj = None -> a = 1) ->
      map (fun arr => nth j arr None) v0 = map Some xs0 -> map (fun arr => nth j arr None) v = map Some xs ->
      (2 <= length xs0)%nat -> (2 <= length xs)%nat ->
      let m0 := mean (map (fun x => (x - t) ^ 2) xs0) in
      let m := mean (map (fun x => (x - t) ^ 2) xs) in
      m0 <> 0 -> m <> 0 ->
      exists g u gs, m_gain_rmse rows = Some gs /\ nth_error gs j = Some (Some g, Some u) /\
        g = a * m0 / m /\
        u = g * sqrt ((mean_square_error xs0 t / m0) ^ 2 + (mean_square_error xs t / m) ^ 2).
Proof.
  intros py3 names methods nest tv adj out H.
  destruct (gain_table _ _ _ _ _ _ _ _ H) as (Hn & Hl & Hf & name0 & base & Hb & He).
  intros i j v0 v a rows xs0 xs t Hi Hv0 Hv Hr Ht Ha Ha1 Hx0 Hx Hl0 Hlx m0 m Hm0 Hm.
  destruct (nth_error out i) as [(name & rows')|] eqn:Ho; [|discriminate]. cbn in Hr. injection Hr as ->.
  destruct (He i name rows v Ho Hv) as (Hs & _ & Hg). destruct Hg as (_ & Hg); [lia|].
  assert (Ho0 : nth_error out 0 = Some (name0, base)) by (destruct out; auto).
  destruct (He 0%nat name0 base v0 Ho0 Hv0) as (Hs0 & _ & _).
  assert (Hsum : forall v xs c, summary_df_from_list py3 v nest (Some tv) true = Ok c ->
      map (fun arr => nth j arr None) v = map Some xs -> (2 <= length xs)%nat ->
      mean (map (fun x => (x - t) ^ 2) xs) <> 0 ->
      exists s r, nth_error c j = Some s /\ 0 < r /\ r ^ 2 = mean (map (fun x => (x - t) ^ 2) xs) /\
                   s_rmse s = Some (Some r, Some (mean_square_error xs t / (2 * r)))).
  { clear - Ht. intros v xs c Hc Hx Hl Hv. unfold summary_df_from_list in Hc.
    destruct (mapM _ v); [|discriminate]. cbn [rbind] in Hc.
    destruct v as [|v1 v]; [destruct xs; [cbn in Hl; lia|discriminate]|].
    set (vs := v1 :: v) in *.
    assert (Hlt : length tv = nest).
    { unfold summary_df in Hc. unfold assertb in Hc. destruct (Nat.eqb_spec (length tv) (length (rows_of nest vs))) as [E|]; [|discriminate].
      rewrite rows_of_length in E. auto. }
    assert (Hj : (j < nest)%nat) by (rewrite <- Hlt; apply nth_error_Some; congruence).
    assert (Hcl : (j < length c)%nat).
    { unfold summary_df in Hc. destruct (assertb _); [|discriminate]. cbn [rbind] in Hc.
      destruct (std_unc_factor _ _); [|discriminate]. cbn [rbind] in Hc. injection Hc as <-.
      rewrite map2_length, rows_of_length. lia. }
    destruct (nth_error c j) as [s|] eqn:Hs; [|apply nth_error_None in Hs; lia].
    destruct (C57_rmse_row _ _ _ _ _ Hc j (nth_row vs j) (Some t) s) as (r & u & Hru & _ & Hfin); auto.
    { apply nth_rows_of. auto. }
    destruct (Hfin xs t) as (-> & _ & Hu & _); auto.
    assert (H0 : 0 <= mean (map (fun x => (x - t) ^ 2) xs)).
    { apply mean_nonneg. intros x Hi. apply in_map_iff in Hi as (y & <- & _). apply pow2_ge_0. }
    assert (Hp : 0 < root_mean_square xs t) by (apply sqrt_lt_R0; lra).
    rewrite Hu in Hru by lra.
    exists s, (root_mean_square xs t). split; auto. split; auto. split; auto. apply pow2_sqrt. auto. }
  destruct (Hsum v0 xs0 _ Hs0 Hx0 Hl0 Hm0) as (s0 & r0 & K1 & K2 & K3 & K4).
  destruct (Hsum v xs _ Hs Hx Hlx Hm) as (s1 & r1 & M1 & M2 & M3 & M4).
  assert (Hadj : adjust_of adj i = Some a).
  { unfold adjust_of. destruct adj as [l|]; [|rewrite Ha1; auto].
    destruct (Ha l eq_refl) as (n0 & ni & -> & -> & Hni & ->). cbn [fdiv].
    destruct (Req_EM_T ni 0); [congruence|auto]. }
  destruct (C56_eff_gain r0 (mean_square_error xs0 t / (2 * r0)) r1 (mean_square_error xs t / (2 * r1)) a)
    as (g & u & G1 & G2 & G3); try lra.
  exists g, u. eexists. split; [exact Hg|]. fold m0 in K3. fold m in M3. split; [|split].
  - unfold gains. rewrite Hadj. rewrite nth_error_map2 with (a := s0) (b := s1) by auto.
    unfold get_rmse. rewrite K4, M4. cbn [fst snd]. rewrite G1. auto.
  - rewrite G2, <- K3, <- M3. field. lra.
  - rewrite G3.
    replace ((mean_square_error xs0 t / (2 * r0) / r0) ^ 2 + (mean_square_error xs t / (2 * r1) / r1) ^ 2)
      with ((/ 2) ^ 2 * ((mean_square_error xs0 t / m0) ^ 2 + (mean_square_error xs t / m) ^ 2))
      by (rewrite <- K3, <- M3; field; lra).
    rewrite sqrt_mult by (try apply pow2_ge_0; apply Rplus_le_le_0_compat; apply pow2_ge_0).
    rewrite sqrt_pow2 by lra. field.
Qed.
Print Assumptions C56_rmse_gain.

Example C56_rmse_gain_example : exists out rows,
    efficiency_gain_df true [1; 2]%Z [[[Some 1]; [Some 3]]; [[Some 2]; [Some 5]]] 1 (Some [Some 2]) true
                       (Some [Some 10; Some 20]) = Ok out /\
    option_map snd (nth_error out 1) = Some rows /\
    mean (map (fun x => (x - 2) ^ 2) [1; 3]) <> 0 /\ mean (map (fun x => (x - 2) ^ 2) [2; 5]) <> 0.
Proof.
  do 2 eexists. split; [|split; [|split]].
  - unfold efficiency_gain_df. cbn [length Nat.eqb assertb rbind hd combine seq foldM].
    cbn -[NoDup_dec summary_column gains]. destruct (NoDup_dec Z.eq_dec [0; 1; 2]%Z) as [|Hn]; [reflexivity|].
    exfalso. apply Hn. repeat constructor; cbn; intuition; discriminate.
  - reflexivity.
  - unfold mean, sumR. cbn. lra.
  - unfold mean, sumR. cbn. lra.
Qed.
