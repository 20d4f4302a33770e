(** C43, C56, C57, C67, C68: summaries over runs. *)
From Coq Require Import Lra.
From Verif Require Import Base ModelRun ModelBoot ModelParallel ModelReal ModelStats Envs
     Spec SpecRun SpecReal ProofBase ProofMonad ProofDet ProofRun ProofBoot
     ProofReal ProofInterp ProofParallel ProofStats PropParallel.
Local Open Scope R_scope.

(** ** C57 *)

Lemma finite_split : forall xs k, finite_part (map Some xs ++ repeat None k) = xs.
Proof.
  intros. unfold finite_part. rewrite flat_map_app. fold (finite_part (map Some xs)). rewrite finite_part_some.
  assert (H : flat_map (fun x : option R => match x with Some a => [a] | None => [] end) (repeat None k) = []).
  { induction k; cbn; auto. }
  rewrite H. apply app_nil_r.
Qed.
Lemma mean_of_perm : forall a b, Permutation a b -> mean_of a = mean_of b.
Proof.
  intros a b H. destruct a as [|x a].
  - apply Permutation_nil in H. subst. auto.
  - assert (b <> []) by (intros ->; apply Permutation_sym, Permutation_nil in H; discriminate).
    rewrite !mean_mean_of by (auto; discriminate). f_equal. unfold mean. change sumR with rsum.
    rewrite (rsum_perm _ _ H), (Permutation_length H). auto.
Qed.
Lemma std_of_perm : forall a b, Permutation a b -> std_of a = std_of b.
Proof.
  intros a b H. unfold std_of. rewrite <- (Permutation_length H).
  destruct (Nat.leb_spec (length a) 1); auto. rewrite (rsum_perm _ _ H). do 2 f_equal. f_equal.
  apply rsum_perm, Permutation_map. auto.
Qed.
Lemma all_finite_perm : forall a b, Permutation a b ->
    match all_finite a, all_finite b with
    | Some x, Some y => Permutation x y
    | None, None => True
    | _, _ => False
    end.
Proof.
  intros a b H. destruct (all_finite a) as [x|] eqn:Ha; destruct (all_finite b) as [y|] eqn:Hb; auto.
  - apply all_finite_inv in Ha. apply all_finite_inv in Hb. subst.
    apply finite_part_perm in H. rewrite !finite_part_some in H. auto.
  - apply all_finite_none in Hb. apply (Permutation_in _ (Permutation_sym H)) in Hb.
    apply all_finite_in in Hb. congruence.
  - apply all_finite_none in Ha. apply (Permutation_in _ H) in Ha. apply all_finite_in in Ha. congruence.
Qed.
Lemma np_mean_perm : forall a b, Permutation a b -> np_mean a = np_mean b.
Proof.
  intros a b H. unfold np_mean. apply all_finite_perm in H. destruct (all_finite a), (all_finite b); try tauto.
  apply mean_of_perm. auto.
Qed.
Lemma np_std_perm : forall a b, Permutation a b -> np_std a = np_std b.
Proof.
  intros a b H. unfold np_std. apply all_finite_perm in H. destruct (all_finite a), (all_finite b); try tauto.
  apply std_of_perm. auto.
Qed.
Lemma summary_column_perm : forall f t a b, Permutation a b -> summary_column f t a = summary_column f t b.
Proof.
  intros f t a b H. unfold summary_column, pd_mean, pd_std.
  rewrite (mean_of_perm _ _ (finite_part_perm _ _ H)), (std_of_perm _ _ (finite_part_perm _ _ H)),
    (Permutation_length H).
  f_equal. destruct t as [t|]; auto. cbn [option_map]. f_equal. unfold rmse_and_unc.
  assert (Hp := Permutation_map (fun x => fsq (fsub x t)) H).
  rewrite (np_std_perm _ _ Hp), (np_mean_perm _ _ Hp), (Permutation_length H). auto.
Qed.
Lemma summary_df_perm : forall py3 n a b tv rm, Forall2 (@Permutation (option R)) a b ->
    summary_df py3 n a tv rm = summary_df py3 n b tv rm.
Proof.
  intros py3 n a b tv rm H. unfold summary_df. rewrite (F2_length _ _ _ _ _ H).
  destruct (assertb _); auto. cbn [rbind]. destruct (std_unc_factor py3 n) as [f|]; auto. cbn [rbind].
  assert (H1 : forall t, map (summary_column f t) a = map (summary_column f t) b).
  { intros t. induction H as [|x y a b Hxy H IH]; cbn; auto. rewrite (summary_column_perm f t x y Hxy). f_equal. auto. }
  destruct rm; [|rewrite H1; auto]. destruct tv as [tv|]; auto. f_equal. clear H1. revert tv.
  unfold map2. induction H as [|x y a b Hxy H IH]; intros [|t tv]; cbn; auto.
  rewrite (summary_column_perm f (Some t) x y Hxy). f_equal. apply IH.
Qed.

(** Reordering the rows changes nothing (nan values included). *)
Theorem C57_row_order : forall py3 n a b tv rm, Forall2 (@Permutation (option R)) a b ->
    summary_df py3 n a tv rm = summary_df py3 n b tv rm.
Proof. exact summary_df_perm. Qed.
Print Assumptions C57_row_order.

(** A column with the finite values [xs] and [k] nan: these are skipped, but
    the uncertainties are computed from the number of all rows. *)
Theorem C57_summary : forall n cols tv rm out, (2 <= n)%nat -> summary_df true n cols tv rm = Ok out ->
    length out = length cols /\
    forall j col s xs k, nth_error cols j = Some col -> nth_error out j = Some s -> length col = n ->
      Permutation col (map Some xs ++ repeat None k) -> (2 <= length xs)%nat ->
      exists sd, s_mean s = Some (mean xs) /\ s_std s = Some sd /\ 0 <= sd /\ sd ^ 2 = variance xs /\
        s_mean_unc s = Some (sd / sqrt (INR n)) /\ s_std_unc s = Some (sd / sqrt (2 * (INR n - 1))) /\
        (rm = false -> s_rmse s = None).
Proof.
  intros n cols tv rm out Hn H. unfold summary_df in H. destruct (assertb _) eqn:Ha; [|discriminate]. cbn [rbind] in H.
  assert (Hf : std_unc_factor true n = Ok (Some (sqrt (1 / (2 * (INR n - 1)))))).
  { destruct n as [|[|n]]; try lia. reflexivity. }
  rewrite Hf in H. cbn [rbind] in H. set (f := Some (sqrt (1 / (2 * (INR n - 1))))) in *.
  assert (Hout : exists ts, length ts = length cols /\ out = map2 (summary_column f) ts cols /\
                            (rm = false -> forall j, nth_error ts j = None \/ nth_error ts j = Some None)).
  { destruct rm.
    - destruct tv as [tv|]; [|discriminate]. injection H as <-. exists (map Some tv).
      unfold assertb in Ha. destruct (Nat.eqb_spec (length tv) (length cols)) as [Hl|]; [|discriminate].
      rewrite map_length. split; auto. split; [|discriminate]. clear. revert cols.
      unfold map2. induction tv as [|t tv IH]; intros [|c cols]; cbn; auto. f_equal. apply IH.
    - injection H as <-. exists (repeat None (length cols)). rewrite repeat_length. split; auto. split.
      + clear. unfold map2. induction cols as [|c cols IH]; cbn; auto. f_equal. auto.
      + intros _ j. clear. revert cols. induction j as [|j IH]; intros [|c cols]; cbn; auto. }
  destruct Hout as (ts & Hl & -> & Hrm). split.
  { rewrite map2_length. lia. }
  intros j col s xs k Hj Hs Hcn Hp Hx.
  assert (Hsc : exists t, nth_error ts j = Some t /\ s = summary_column f t col).
  { clear - Hj Hs Hl. revert ts cols Hl Hj Hs. unfold map2. induction j as [|j IH]; intros [|t ts] [|c cols] Hl Hj Hs;
      cbn in *; try discriminate.
    - injection Hj as ->. injection Hs as <-. eauto.
    - apply (IH ts cols); auto. }
  destruct Hsc as (t & Ht & ->). unfold summary_column. cbn [s_mean s_mean_unc s_std s_std_unc s_rmse].
  assert (Hfp : Permutation (finite_part col) xs).
  { rewrite <- (finite_split xs k). apply finite_part_perm. auto. }
  unfold pd_mean, pd_std. rewrite (mean_of_perm _ _ Hfp), (std_of_perm _ _ Hfp), std_variance by auto.
  rewrite mean_mean_of by (intros ->; cbn in Hx; lia).
  assert (Hnr : 2 <= INR n) by (change 2 with (INR 2); apply le_INR; auto).
  assert (Hv : 0 <= variance xs).
  { unfold variance. change sumR with rsum. apply Rmult_le_pos.
    - apply rsum_nonneg. intros y Hy. apply in_map_iff in Hy as (z & <- & _). apply pow2_ge_0.
    - apply Rlt_le, Rinv_0_lt_compat. assert (2 <= INR (length xs)) by (change 2 with (INR 2); apply le_INR; auto). lra. }
  exists (sqrt (variance xs)). split; auto. split; auto. split; [apply sqrt_pos|]. split; [apply pow2_sqrt; auto|].
  split; [|split].
  - rewrite Hcn. cbn [lift1 option_map fdiv]. destruct (Req_EM_T (sqrt (INR n)) 0) as [He|]; auto.
    apply sqrt_eq_0 in He; lra.
  - unfold f. cbn [fmul lift2]. f_equal. unfold Rdiv. rewrite Rmult_1_l, sqrt_inv. auto.
  - intros Hrf. destruct (Hrm Hrf j) as [Hc|Hc]; [congruence|].
    rewrite Ht in Hc. injection Hc as ->. reflexivity.
Qed.
Print Assumptions C57_summary.

(** RMSE: rmse^2 = (mean - true)^2 + (n-1)/n variance, and its uncertainty is
    the propagated one of the mean of squared errors. *)
Theorem C57_rmse : forall xs t, (2 <= length xs)%nat ->
    exists r u, rmse_and_unc (map Some xs) (Some t) = (Some r, u) /\ 0 <= r /\
      r ^ 2 = (mean xs - t) ^ 2 + (INR (length xs) - 1) / INR (length xs) * variance xs /\
      (r <> 0 -> u = Some (sqrt (variance (map (fun x => (x - t) ^ 2) xs)) / sqrt (INR (length xs)) / (2 * r))).
Proof.
  intros xs t Hx. set (n := length xs) in *.
  assert (Hnr : 2 <= INR n) by (change 2 with (INR 2); apply le_INR; auto).
  assert (Hne : xs <> []) by (intros H; unfold n in Hx; rewrite H in Hx; cbn in Hx; lia).
  set (sq := map (fun x => (x - t) ^ 2) xs).
  assert (Hsq : map (fun x => fsq (fsub x (Some t))) (map Some xs) = map Some sq).
  { unfold sq. rewrite !map_map. apply map_ext. intros. reflexivity. }
  assert (Hm : 0 <= mean sq).
  { unfold mean. change sumR with rsum. apply Rmult_le_pos.
    - apply rsum_nonneg. intros y Hy. apply in_map_iff in Hy as (z & <- & _). apply pow2_ge_0.
    - unfold sq. rewrite map_length. fold n. apply Rlt_le, Rinv_0_lt_compat. lra. }
  unfold rmse_and_unc. rewrite Hsq. unfold np_mean, np_std. rewrite all_finite_some.
  rewrite mean_mean_of by (unfold sq; intros H; apply map_eq_nil in H; auto).
  rewrite std_variance by (unfold sq; rewrite map_length; auto). rewrite map_length. fold n.
  cbn [lift1 option_map]. exists (sqrt (mean sq)). eexists. split; [reflexivity|]. split; [apply sqrt_pos|]. split.
  - rewrite pow2_sqrt by auto. unfold sq, variance. unfold mean at 1. rewrite map_length. fold n. change sumR with rsum.
    set (m := mean xs).
    assert (Hs : rsum xs = INR n * m).
    { unfold m, mean. change sumR with rsum. fold n. field. lra. }
    assert (H1 : forall c, rsum (map (fun x => (x - c) ^ 2) xs) = rsum (map (fun x => x ^ 2) xs) - 2 * c * rsum xs + INR n * c ^ 2).
    { intros c. unfold n. clear. induction xs as [|x xs IH]; cbn [map length]; rewrite ?rsum_cons, ?S_INR.
      - unfold rsum. cbn [fold_right INR]. ring.
      - rewrite IH. ring. }
    rewrite !H1, Hs. field. lra.
  - intros Hr. unfold fmul. cbn [fdiv lift2]. destruct (Req_EM_T (sqrt (mean sq)) 0); [congruence|].
    destruct (Req_EM_T (sqrt (INR n)) 0) as [He|]; [apply sqrt_eq_0 in He; lra|]. unfold fmul. cbn [lift2]. f_equal. replace 0.5 with (1 / 2) by lra. field. auto.
Qed.
Print Assumptions C57_rmse.

Example C57_example : exists out, summary_df true 3 [[Some 1; None; Some 3]] None false = Ok out.
Proof. eexists. reflexivity. Qed.

(** ** C68: with Python 2.7 the uncertainty on every standard deviation is 0. *)
Theorem C68_python2_std_uncertainty : forall n cols tv rm out, (2 <= n)%nat ->
    summary_df false n cols tv rm = Ok out ->
    forall s, In s out -> s_std_unc s = Some 0 \/ s_std s = None.
Proof.
  intros n cols tv rm out Hn H s Hs. unfold summary_df in H. destruct (assertb _); [|discriminate]. cbn [rbind] in H.
  assert (Hf : std_unc_factor false n = Ok (Some 0)) by (destruct n as [|[|n]]; try lia; reflexivity).
  rewrite Hf in H. cbn [rbind] in H.
  assert (Hc : exists t c, s = summary_column (Some 0) t c).
  { destruct rm; [destruct tv as [tv|]; [|discriminate]|]; injection H as <-.
    - apply in_map_iff in Hs as ((t & c) & <- & _). cbn. eauto.
    - apply in_map_iff in Hs as (c & <- & _). eauto. }
  destruct Hc as (t & c & ->). unfold summary_column. cbn [s_std_unc s_std]. destruct (pd_std c); [left|right; auto].
  cbn. f_equal. lra.
Qed.
Print Assumptions C68_python2_std_uncertainty.

(** ** C56 *)

Theorem C56_eff_gain : forall b bu m mu a, b <> 0 -> m <> 0 ->
    exists g u, get_eff_gain (Some b) (Some bu) (Some m) (Some mu) (Some a) = (Some g, Some u) /\
      g = a * (b / m) ^ 2 /\ u = 2 * g * sqrt ((bu / b) ^ 2 + (mu / m) ^ 2).
Proof.
  intros b bu m mu a Hb Hm. unfold get_eff_gain, array_ratio_std. cbn [fdiv].
  destruct (Req_EM_T m 0); [congruence|]. destruct (Req_EM_T b 0); [congruence|].
  cbn [fsq lift1 option_map fadd lift2 fmul]. do 2 eexists. split; [reflexivity|]. split; [ring|]. ring.
Qed.
Print Assumptions C56_eff_gain.

(** Equal methods gain [a]; a change of units changes nothing. *)
Theorem C56_eff_gain_invariance : forall b bu m mu a c, b <> 0 -> m <> 0 -> c <> 0 ->
    fst (get_eff_gain (Some b) (Some bu) (Some b) (Some bu) (Some a)) = Some a /\
    get_eff_gain (Some (c * b)) (Some (c * bu)) (Some (c * m)) (Some (c * mu)) (Some a) =
    get_eff_gain (Some b) (Some bu) (Some m) (Some mu) (Some a).
Proof.
  intros b bu m mu a c Hb Hm Hc.
  destruct (C56_eff_gain b bu b bu a Hb Hb) as (g & u & H & Hg & _).
  destruct (C56_eff_gain b bu m mu a Hb Hm) as (g1 & u1 & H1 & Hg1 & Hu1).
  destruct (C56_eff_gain (c * b) (c * bu) (c * m) (c * mu) a) as (g2 & u2 & H2 & Hg2 & Hu2);
    try (apply Rmult_integral_contrapositive_currified; auto).
  split.
  - rewrite H. cbn [fst]. f_equal. rewrite Hg. field. auto.
  - rewrite H1, H2. assert (Hgg : g2 = g1) by (rewrite Hg1, Hg2; field; auto).
    assert (Huu : u2 = u1); [|rewrite Hgg, Huu; reflexivity].
    rewrite Hu1, Hu2, Hgg. replace (c * bu / (c * b)) with (bu / b) by (field; auto).
    replace (c * mu / (c * m)) with (mu / m) by (field; auto). auto.
Qed.
Print Assumptions C56_eff_gain_invariance.

(** ** C43: the summary does not depend on the order in which the parallel
    tasks are completed. *)

Lemma mapM_perm : forall A B (f : A -> res B) o o' a, Permutation o o' -> mapM f o = Ok a ->
    exists a', mapM f o' = Ok a' /\ Permutation a a'.
Proof.
  intros A B f o o' a H. revert a. induction H as [|x o o' H IH|x y o|o o1 o' H1 IH1 H2 IH2]; intros a Ha.
  - exists a. split; auto.
  - cbn [mapM] in *. destruct (f x) as [v|]; [|discriminate]. cbn [rbind] in *. destruct (mapM f o) as [vs|] eqn:Ho; [|discriminate].
    injection Ha as <-. destruct (IH vs eq_refl) as (a' & -> & Hp). exists (v :: a'). split; auto.
  - cbn [mapM] in *. destruct (f y) as [v|]; [|discriminate]. cbn [rbind] in *. destruct (f x) as [u|]; [|discriminate].
    cbn [rbind] in *. destruct (mapM f o) as [vs|] eqn:Ho; [|discriminate]. injection Ha as <-.
    exists (u :: v :: vs). split; auto. apply perm_swap.
  - destruct (IH1 a Ha) as (a1 & Ha1 & Hp1). destruct (IH2 a1 Ha1) as (a2 & Ha2 & Hp2). exists a2. split; auto.
    eapply Permutation_trans; eauto.
Qed.

(** Distances over all pairs, from the first element on. *)
Fixpoint pairs {A B} (dist : A -> A -> B) (l : list A) : list B :=
  match l with [] => [] | x :: t => map (dist x) t ++ pairs dist t end.
Lemma pairs_perm : forall A B (dist : A -> A -> B) l l', (forall x y, dist x y = dist y x) ->
    Permutation l l' -> Permutation (pairs dist l) (pairs dist l').
Proof.
  intros A B dist l l' Hs H. induction H as [|x l l' H IH|x y l|l l1 l' H1 IH1 H2 IH2]; cbn [pairs map app].
  - constructor.
  - apply Permutation_app; auto. apply Permutation_map. auto.
  - rewrite (Hs y x). constructor. rewrite !app_assoc. apply Permutation_app_tail. apply Permutation_app_comm.
  - eapply Permutation_trans; eauto.
Qed.
Lemma pairs_snoc : forall A B (dist : A -> A -> B) l x, (forall x y, dist x y = dist y x) ->
    Permutation (pairs dist (l ++ [x])) (pairs dist l ++ map (dist x) l).
Proof.
  intros A B dist l x Hs.
  apply Permutation_trans with (pairs dist (x :: l)).
  - apply pairs_perm; auto. apply Permutation_sym, Permutation_cons_append.
  - cbn [pairs]. apply Permutation_app_comm.
Qed.
Lemma combine_snoc : forall A B (a : list A) (b : list B) x y, length a = length b ->
    combine (a ++ [x]) (b ++ [y]) = combine a b ++ [(x, y)].
Proof.
  induction a as [|u a IH]; intros [|v b] x y H; try discriminate; auto. cbn. f_equal. apply IH. injection H. auto.
Qed.
Lemma pairwise_snoc : forall A B (dist : A -> A -> B) l x,
    map snd (pairwise dist (l ++ [x])) = map snd (pairwise dist l) ++ map (dist x) l.
Proof.
  intros A B dist l x. unfold pairwise. rewrite app_length. cbn [length]. rewrite seq_app. cbn [seq Nat.add].
  rewrite !combine_snoc by (rewrite seq_length; auto).
  rewrite flat_map_app, map_app. f_equal.
  - f_equal. assert (H : forall i y, In (i, y) (combine (seq 0 (length l)) l) -> (i < length l)%nat).
    { intros i y Hi. apply in_combine_l, in_seq in Hi. lia. }
    set (full := combine (seq 0 (length l)) l) in *.
    assert (Hq : forall q, (forall i y, In (i, y) q -> (i < length l)%nat) ->
      flat_map (fun '(i, x0) => flat_map (fun '(j, y) => if (j <? i)%nat then [((i, j), dist x0 y)] else [])
                                         (full ++ [(length l, x)])) q =
      flat_map (fun '(i, x0) => flat_map (fun '(j, y) => if (j <? i)%nat then [((i, j), dist x0 y)] else []) full) q).
    { induction q as [|(i & y) q IH]; intros Hq; auto. cbn [flat_map].
      rewrite IH by (intros; eapply Hq; right; eauto). f_equal.
      rewrite flat_map_app. cbn [flat_map]. specialize (Hq i y (or_introl eq_refl)).
      destruct (Nat.ltb_spec (length l) i); [lia|]. rewrite !app_nil_r. auto. }
    apply Hq. auto.
  - cbn [combine flat_map]. rewrite app_nil_r, flat_map_app. cbn [flat_map].
    rewrite Nat.ltb_irrefl, !app_nil_r.
    assert (H : forall k q, (k + length q <= length l)%nat ->
        map snd (flat_map (fun '(j, y) => if (j <? length l)%nat then [(length l, j, dist x y)] else [])
                          (combine (seq k (length q)) q)) = map (dist x) q).
    { intros k q. revert k. induction q as [|y q IH]; intros k Hk; auto. cbn [length] in *. cbn [seq combine flat_map].
      destruct (Nat.ltb_spec k (length l)); [|lia]. cbn [app map snd]. f_equal. apply IH. lia. }
    apply H. lia.
Qed.
Lemma pairwise_pairs : forall A B (dist : A -> A -> B) l, (forall x y, dist x y = dist y x) ->
    Permutation (map snd (pairwise dist l)) (pairs dist l).
Proof.
  intros A B dist l Hs. induction l as [|x l IH] using rev_ind; [constructor|].
  rewrite pairwise_snoc. eapply Permutation_trans; [|apply Permutation_sym, pairs_snoc; auto].
  apply Permutation_app_tail. auto.
Qed.
Lemma pair_columns_perm : forall A (dist : A -> A -> list fl) k nest d t t', (forall x y, dist x y = dist y x) ->
    Permutation t t' ->
    Forall2 (@Permutation (option R)) (pair_columns dist k nest d t) (pair_columns dist k nest d t').
Proof.
  intros A dist k nest d t t' Hs Hp. unfold pair_columns. induction (seq 0 nest) as [|j js IH]; cbn [map]; constructor; auto.
  rewrite <- !(map_map snd (fun r => nth k r None)). apply Permutation_map.
  eapply Permutation_trans; [apply pairwise_pairs; auto|].
  eapply Permutation_trans; [|apply Permutation_sym, pairwise_pairs; auto].
  apply pairs_perm; auto. unfold cells. apply Permutation_map. auto.
Qed.
Lemma rows_of_perm : forall k t t', Permutation t t' ->
    Forall2 (@Permutation (option R)) (rows_of k t) (rows_of k t').
Proof.
  intros k t t' Hp. unfold rows_of. induction (seq 0 k) as [|j js IH]; cbn [map]; constructor; auto.
  unfold nth_row. apply Permutation_map. auto.
Qed.

(** *** Values do not depend on the state of the random number generator. *)

Lemma det_bootstrap_values : forall E srt r l ns fs n,
    det (E := E) (run_bootstrap_values srt r l ns fs n (default_seeds n)).
Proof.
  intros. unfold run_bootstrap_values. apply det_bind; [|intros; apply det_ret].
  apply det_columns. intros b Hb. apply in_map_iff in Hb as (z & <- & _). reflexivity.
Qed.
Lemma det_thread_values : forall E A (est : run -> res (list A)) r, det (E := E) (run_thread_values est r).
Proof.
  intros. unfold run_thread_values. apply det_bind; [apply det_get_run_threads|intros].
  apply det_bind; [apply det_lift|]. intros [|]; [apply det_raise|apply det_ret].
Qed.
Lemma det_value : forall E A (m : W E A), det m -> forall w w', fst (m w) = fst (m w').
Proof. intros E A m H. apply det_leaves in H. apply H. Qed.

Lemma normal_cases : forall E (norm : normals E) mu sigma n,
    (forall w, normal norm mu sigma n w = (Raise ValueError, w)) \/
    (forall w, normal norm mu sigma n w =
               (Ok (fst (norm mu sigma n (w_rng w))), mkW (snd (norm mu sigma n (w_rng w))) (w_warn w))).
Proof.
  intros E norm mu sigma n.
  assert (H : forall w : world E, (let '(l, st) := norm mu sigma n (w_rng w) in (Ok l, mkW st (w_warn w))) =
      (Ok (fst (norm mu sigma n (w_rng w))), mkW (snd (norm mu sigma n (w_rng w))) (w_warn w))).
  { intros w. destruct (norm mu sigma n (w_rng w)). auto. }
  unfold normal. destruct sigma as [q|]; [destruct (Rlt_dec q 0)|]; auto.
Qed.
Lemma det_imp_one : forall E (norm : normals E) nsim z v vu s su, det (imp_one norm nsim (BInt z) v vu s su).
Proof.
  intros. unfold det, imp_one, wbind, get_state, set_state, apply_seed, seed, wret.
  destruct (good_seed z).
  2: { exists (Raise ValueError), [], (fun st => st). split; [|auto]. intros [s0 ws]. reflexivity. }
  destruct (normal_cases E norm v vu nsim) as [Hv|Hv].
  - exists (Raise ValueError), [], (fun _ => r_seed E z). split; [|right; eauto]. intros w.
    unfold set_state. rewrite Hv. reflexivity.
  - destruct (normal_cases E norm s su nsim) as [Hs|Hs].
    + eexists (Raise ValueError), [], (fun _ => _). split; [|right; eauto]. intros w.
      unfold set_state. rewrite Hv, Hs. cbn [w_rng w_warn]. reflexivity.
    + eexists (Ok _), [], (fun st => st). split; [|auto]. intros w. unfold set_state. rewrite Hv, Hs. cbn [w_rng w_warn]. reflexivity.
Qed.
Lemma det_implementation_std : forall E (norm : normals E) a b c d nsim z,
    det (implementation_std norm a b c d nsim (BInt z)).
Proof.
  intros. unfold implementation_std. apply det_if; [|apply det_raise]. apply det_mapM.
  intros ((v & vu) & (s & su)). apply det_imp_one.
Qed.
Lemma det_error_values_summary : forall E (norm : normals E) py3 frames tv rm,
    det (error_values_summary norm py3 frames tv rm).
Proof.
  intros. unfold error_values_summary. apply det_bind; [apply det_lift|intros].
  apply det_bind; [apply det_lift|intros]. apply det_bind; [apply det_lift|intros].
  apply det_bind; [apply det_implementation_std|intros]. apply det_bind; [|intros; apply det_ret].
  apply det_if; [|apply det_ret]. apply det_bind; [apply det_implementation_std|intros; apply det_ret].
Qed.

(** *** The values without schedules and worlds *)

Definition frames_rel (f f' : list (calc * (nat * list (list fl)))) : Prop :=
  Forall2 (fun a b => fst a = fst b /\ fst (snd a) = fst (snd b) /\
                      Forall2 (@Permutation (option R)) (snd (snd a)) (snd (snd b))) f f'.
Lemma frames_summary : forall E (norm : normals E) py3 f f' tv rm, frames_rel f f' ->
    error_values_summary norm py3 f tv rm = error_values_summary norm py3 f' tv rm.
Proof.
  intros E norm py3 f f' tv rm H. unfold error_values_summary.
  assert (He : mapM (fun '(c, (n, cols)) => let! s := summary_df py3 n cols tv rm in Ok (c, s)) f =
               mapM (fun '(c, (n, cols)) => let! s := summary_df py3 n cols tv rm in Ok (c, s)) f').
  { induction H as [|(c & n & cols) (c' & n' & cols') f f' (H1 & H2 & H3) H IH]; auto. cbn [fst snd] in *. subst.
    cbn [mapM]. rewrite (summary_df_perm py3 n' cols cols' tv rm H3), IH. auto. }
  rewrite He. auto.
Qed.

Section Pure.
Variables (srt : list R -> list nat) (dist : list fl -> list fl -> list fl) (l : list estimator) (n : nat).
Variables (gb gt : run -> res (list (list fl))) (runs : list run).
Definition gv (r : run) : res (list fl) := run_estimators srt r l None.
Definition nonempty {A} (e : exn) (v : list A) : res (list A) := match v with [] => Raise e | _ => Ok v end.
Definition npairs (k : nat) : nat := (k * (k - 1) / 2)%nat.
Definition pure_base (o1 o2 : list nat) : res (list (list fl) * list (list (list fl))) :=
  let! v := mapM (at_index gv runs) o1 in
  let! v := nonempty ValueError v in
  let! b := mapM (at_index gb runs) o2 in
  let! b := nonempty KeyError b in
  let! _ := nonempty KeyError l in
  Ok (v, b).
Definition pure_threads (o3 : list nat) : res (list (list (list fl))) :=
  let! t := mapM (at_index gt runs) o3 in
  match t, runs with
  | a0 :: _, r0 :: _ =>
      match thread_min_max r0 with
      | None => Raise AttributeError
      | Some tmm => let! _ := assertb (length a0 =? length tmm)%nat in Ok t
      end
  | _, _ => Raise KeyError
  end.
Definition frames_of (tp bsd : bool) (v : list (list fl)) (b : list (list (list fl))) (t : list (list (list fl)))
  : list (calc * (nat * list (list fl))) :=
  [(CValues, (length v, rows_of (length l) v));
   (CBsStd, (length (map (map np_std) b), rows_of (length l) (map (map np_std) b)))] ++
  (if tp then [(CThreadKs, (npairs (length t), pair_columns dist 0 (length l) [] (map (rows_of (length l)) t)))] else []) ++
  (if bsd then map (fun d => (CBsDist d, (npairs (length b), pair_columns dist d (length l) [] b)))
                   [1%nat; 2%nat; 3%nat] else []).
Definition pure_frames (tp bsd : bool) (o1 o2 o3 : list nat) : res (list (calc * (nat * list (list fl)))) :=
  let! vb := pure_base o1 o2 in
  let! t := if tp then pure_threads o3 else Ok [] in
  Ok (frames_of tp bsd (fst vb) (snd vb) t).

Lemma run_list_pure : forall E (p1 p2 p3 : option (sched E)) tp bsd (w : world E),
    (forall r (w : world E), fst (run_bootstrap_values srt r l false true n (default_seeds n) w) = gb r) ->
    (forall r (w : world E), fst (run_thread_values gv r w) = gt r) ->
    fst (run_list_error_values p1 p2 p3 srt dist l n tp bsd runs w) =
    pure_frames tp bsd (order_of p1 (length runs)) (order_of p2 (length runs)) (order_of p3 (length runs)).
Proof.
  intros E p1 p2 p3 tp bsd w Hgb Hgt. unfold run_list_error_values, pure_frames, pure_base.
  assert (H1 : fst (estimator_values_df p1 gv runs w) =
      let! v := mapM (at_index gv runs) (order_of p1 (length runs)) in nonempty ValueError v).
  { unfold estimator_values_df, wbind. pose proof (parallel_apply_free E _ _ p1 true (fun r => wlift (gv r)) gv runs w) as H.
    destruct (parallel_apply p1 true (fun r => wlift (gv r)) runs w) as [[v|e] w1]; cbn [fst] in H; rewrite <- H by auto; auto.
    cbn [rbind]. destruct v; auto. }
  unfold wbind at 1. fold gv. destruct (estimator_values_df p1 gv runs w) as [[v|e] w1]; cbn [fst] in *.
  2:{ destruct (mapM _ _) as [u|]; [|injection H1 as <-; auto]. cbn [rbind] in *. destruct u; [|discriminate].
      cbn [nonempty] in *. cbn [rbind]. congruence. }
  destruct (mapM _ _) as [u|]; [|discriminate]. cbn [rbind] in *. rewrite <- H1. cbn [rbind]. clear u H1.
  assert (H2 : fst (bs_values_df p2 srt l n runs w1) =
      let! b := mapM (at_index gb runs) (order_of p2 (length runs)) in
      let! b := nonempty KeyError b in let! _ := nonempty KeyError l in Ok b).
  { unfold bs_values_df, wbind.
    pose proof (parallel_apply_free E _ _ p2 true (fun r => run_bootstrap_values srt r l false true n (default_seeds n))
                                    gb runs w1 Hgb) as H.
    destruct (parallel_apply p2 true _ runs w1) as [[b|e] w2]; cbn [fst] in H; rewrite <- H; auto.
    cbn [rbind]. destruct b, l; auto. }
  unfold wbind at 1. destruct (bs_values_df p2 srt l n runs w1) as [[b|e] w2]; cbn [fst] in *.
  2:{ destruct (mapM _ _) as [u|]; [|injection H2 as <-; auto]. cbn [rbind] in *.
      destruct (nonempty KeyError u); cbn [rbind] in *; [|congruence]. destruct (nonempty KeyError l); cbn [rbind] in *; congruence. }
  destruct (mapM _ _) as [u|]; [|discriminate]. cbn [rbind] in *. destruct (nonempty KeyError u); [|discriminate].
  cbn [rbind] in *. destruct (nonempty KeyError l); [|discriminate]. cbn [rbind fst snd] in *. injection H2 as <-.
  destruct tp.
  - unfold wbind at 1 2.
    assert (H3 : fst (thread_values_df p3 gv runs w2) = pure_threads (order_of p3 (length runs))).
    { unfold thread_values_df, pure_threads, wbind.
      pose proof (parallel_apply_free E _ _ p3 true (run_thread_values gv) gt runs w2 Hgt) as H.
      destruct (parallel_apply p3 true _ runs w2) as [[t|e] w3]; cbn [fst] in H; rewrite <- H; auto.
      cbn [rbind]. destruct t as [|aa t]; auto. destruct runs as [|r0 rr]; auto. destruct (thread_min_max r0) as [tmm|]; auto.
      unfold wassert, wlift. destruct (assertb _); auto. }
    destruct (thread_values_df p3 gv runs w2) as [[t|e] w3]; cbn [fst] in H3; rewrite <- H3; auto.
    cbn [rbind]. destruct bsd; reflexivity.
  - unfold wbind, wret. cbn [rbind]. destruct bsd; reflexivity.
Qed.

Lemma frames_of_rel : forall tp bsd v b t v' b' t', (forall x y, dist x y = dist y x) ->
    Permutation v v' -> Permutation b b' -> Permutation t t' ->
    frames_rel (frames_of tp bsd v b t) (frames_of tp bsd v' b' t').
Proof.
  intros tp bsd v b t v' b' t' Hs Hv Hb Ht. unfold frames_of, frames_rel. rewrite !map_length.
  rewrite (Permutation_length Hv), (Permutation_length Hb), (Permutation_length Ht).
  apply Forall2_app; [|apply Forall2_app].
  - constructor; [|constructor; [|constructor]]; cbn [fst snd]; (split; [auto|split; [auto|]]).
    + apply rows_of_perm. auto.
    + apply rows_of_perm. apply Permutation_map. auto.
  - destruct tp; constructor; [|constructor]. cbn [fst snd]. split; [auto|split; [auto|]].
    apply pair_columns_perm; auto. apply Permutation_map. auto.
  - destruct bsd; [|constructor]. cbn [map].
    repeat (constructor; [cbn [fst snd]; split; [auto|split; [auto|apply pair_columns_perm; auto]]|]). constructor.
Qed.

Lemma nonempty_ok : forall A e (v u : list A), nonempty e v = Ok u -> u = v /\ v <> [].
Proof. intros A e [|x v] u H; [discriminate|]. injection H as <-. split; auto. discriminate. Qed.
Lemma nonempty_some : forall A e (v : list A), v <> [] -> nonempty e v = Ok v.
Proof. intros A e [|x v] H; [congruence|auto]. Qed.
Lemma perm_ne : forall A (a b : list A), Permutation a b -> a <> [] -> b <> [].
Proof. intros A a b H Ha ->. apply Permutation_sym, Permutation_nil in H. auto. Qed.

Lemma pure_base_perm : forall o1 o2 o1' o2' v b, Permutation o1 o1' -> Permutation o2 o2' ->
    pure_base o1 o2 = Ok (v, b) ->
    exists v' b', pure_base o1' o2' = Ok (v', b') /\ Permutation v v' /\ Permutation b b'.
Proof.
  intros o1 o2 o1' o2' v b H1 H2 H. unfold pure_base in *.
  destruct (mapM (at_index gv runs) o1) as [v0|] eqn:Hv; [|discriminate]. cbn [rbind] in H.
  destruct (nonempty ValueError v0) as [v1|] eqn:Hv1; [|discriminate]. cbn [rbind] in H. apply nonempty_ok in Hv1 as (-> & Hvn).
  destruct (mapM (at_index gb runs) o2) as [b0|] eqn:Hb; [|discriminate]. cbn [rbind] in H.
  destruct (nonempty KeyError b0) as [b1|] eqn:Hb1; [|discriminate]. cbn [rbind] in H. apply nonempty_ok in Hb1 as (-> & Hbn).
  destruct (nonempty KeyError l) as [l1|] eqn:Hl1; [|discriminate]. cbn [rbind] in H. injection H as -> ->.
  destruct (mapM_perm _ _ _ _ _ _ H1 Hv) as (v' & -> & Pv). destruct (mapM_perm _ _ _ _ _ _ H2 Hb) as (b' & -> & Pb).
  exists v', b'. cbn [rbind]. rewrite (nonempty_some _ _ v') by (eapply perm_ne; eauto). cbn [rbind].
  rewrite (nonempty_some _ _ b') by (eapply perm_ne; eauto). cbn [rbind]. auto.
Qed.
Lemma pure_threads_inv : forall o t, pure_threads o = Ok t -> mapM (at_index gt runs) o = Ok t.
Proof.
  intros o t H. unfold pure_threads in H. destruct (mapM _ o) as [t0|]; [|discriminate]. cbn [rbind] in H.
  destruct t0 as [|a0 t0]; [discriminate|]. destruct runs as [|r0 rr]; [discriminate|].
  destruct (thread_min_max r0); [|discriminate]. destruct (assertb _); [|discriminate]. injection H as <-. auto.
Qed.

(** Number of threads *)
Definition nthreads (r : run) : option nat := option_map (@length _) (thread_min_max r).
Lemma pure_threads_perm : forall o o' t, Permutation o o' ->
    (forall r x, gt r = Ok x -> nthreads r = Some (length x)) ->
    (forall r r', In r runs -> In r' runs -> nthreads r = nthreads r') ->
    pure_threads o = Ok t -> exists t', pure_threads o' = Ok t' /\ Permutation t t'.
Proof.
  intros o o' t Hp Hgt Hc H. pose proof (pure_threads_inv _ _ H) as Hm.
  destruct (mapM_perm _ _ _ _ _ _ Hp Hm) as (t' & Ht' & Pt). exists t'. split; auto.
  unfold pure_threads in *. rewrite Hm in H. rewrite Ht'. cbn [rbind] in *. destruct t as [|a t]; [discriminate|].
  destruct t' as [|a' t']; [apply Permutation_sym, Permutation_nil in Pt; discriminate|].
  destruct runs as [|r0 rr] eqn:Hr; [discriminate|]. destruct (thread_min_max r0) as [tmm|] eqn:Htm; [|discriminate].
  destruct (Nat.eqb_spec (length a') (length tmm)) as [|Hne]; [reflexivity|exfalso]. apply Hne.
  destruct o' as [|i o']; [discriminate|]. cbn [mapM] in Ht'. unfold at_index at 1 in Ht'.
  destruct (nth_error (r0 :: rr) i) as [r|] eqn:Hi; [|discriminate].
  destruct (gt r) as [x|] eqn:Hx; [|discriminate]. cbn [rbind] in Ht'.
  destruct (mapM _ o'); [|discriminate]. injection Ht' as -> _. apply Hgt in Hx.
  rewrite (Hc r r0) in Hx; [|eapply nth_error_In; eauto|left; auto]. unfold nthreads in Hx. rewrite Htm in Hx.
  injection Hx as Hx. auto.
Qed.
End Pure.

Lemma thread_values_count : forall E A (est : run -> res (list A)) r (w : world E) x,
    fst (run_thread_values est r w) = Ok x -> nthreads r = Some (length x).
Proof.
  intros E A est r w x H. unfold run_thread_values, wbind in H.
  destruct (get_run_threads r w) as [[ths|] w1] eqn:Hg; [|discriminate].
  unfold wlift in H. destruct (mapM est ths) as [vals|] eqn:Hm; [|discriminate].
  assert (x = vals) by (destruct vals; [discriminate|]; injection H as <-; auto). subst x.
  assert (Hl : length vals = length ths).
  { clear - Hm. revert vals Hm. induction ths as [|t ths IH]; intros vals Hm; cbn [mapM] in Hm.
    - injection Hm as <-. auto.
    - destruct (est t); [|discriminate]. cbn [rbind] in Hm. destruct (mapM est ths); [|discriminate].
      injection Hm as <-. cbn. f_equal. apply IH. auto. }
  rewrite Hl. unfold get_run_threads, wbind, wlift in Hg. destruct (array_given_run r); [|discriminate].
  unfold nthreads. destruct (thread_labels r) as [labs|]; [|discriminate]. destruct (thread_min_max r) as [tmm|]; [|discriminate].
  unfold wassert, assertb, wlift in Hg. destruct (Nat.eqb_spec (length tmm) (length (unique labs))) as [He|]; [|discriminate].
  cbn [option_map]. f_equal.
  match type of Hg with wmapM ?f _ _ = _ => set (F := f) in * end.
  assert (Hw : forall q (w : world E) y w', wmapM F q w = (Ok y, w') -> length y = length q).
  { clear. induction q as [|z q IH]; intros w y w' H; cbn [wmapM] in H.
    - injection H as <- _. auto.
    - apply wbind_Ok in H as (aa & w1 & _ & H). apply wbind_Ok in H as (bb & w2 & H & Hr). injection Hr as <- _.
      cbn. f_equal. eapply IH; eauto. }
  apply Hw in Hg. rewrite combine_length in Hg. lia.
Qed.

Lemma order_perm : forall E (p p' : option (sched E)) k, schedules p k -> schedules p' k ->
    Permutation (order_of p k) (order_of p' k).
Proof.
  intros E p p' k H H'. apply Permutation_trans with (seq 0 k).
  - destruct p; cbn in *; auto.
  - apply Permutation_sym. destruct p'; cbn in *; auto.
Qed.

Lemma summary_fst : forall E (norm : normals E) py3 p1 p2 p3 srt dist l n tp bsd tv rm runs (w : world E),
    fst (run_list_error_summary norm py3 p1 p2 p3 srt dist l n tp bsd tv rm runs w) =
    let! frames := fst (run_list_error_values p1 p2 p3 srt dist l n tp bsd runs w) in
    fst (error_values_summary norm py3 frames tv rm w).
Proof.
  intros. unfold run_list_error_summary, wbind.
  destruct (run_list_error_values p1 p2 p3 srt dist l n tp bsd runs w) as [[f|e] w1]; cbn [fst rbind]; auto.
  apply det_value, det_error_values_summary.
Qed.

Section Schedules.
Variables (E : env) (norm : normals E) (py3 : bool) (srt : list R -> list nat).
Variables (dist : list fl -> list fl -> list fl) (l : list estimator) (n : nat) (tp bsd : bool).
Variables (tv : option (list fl)) (rm : bool) (runs : list run).
Hypothesis Hsym : forall x y, dist x y = dist y x.
Definition summary (p : option (sched E) * option (sched E) * option (sched E)) (w : world E) : res err_summary :=
  fst (run_list_error_summary norm py3 (fst (fst p)) (snd (fst p)) (snd p) srt dist l n tp bsd tv rm runs w).
Definition scheduled (p : option (sched E) * option (sched E) * option (sched E)) : Prop :=
  schedules (fst (fst p)) (length runs) /\ schedules (snd (fst p)) (length runs) /\
  schedules (snd p) (length runs).

Lemma summary_pure : forall _ : world E, exists gb gt,
    (forall r (w : world E), fst (run_thread_values (gv srt l) r w) = gt r) /\
    (forall p w, summary p w =
      let! frames := pure_frames srt dist l gb gt runs tp bsd (order_of (fst (fst p)) (length runs))
                                 (order_of (snd (fst p)) (length runs)) (order_of (snd p) (length runs)) in
      fst (error_values_summary norm py3 frames tv rm w)).
Proof.
  intros w0.
  exists (fun r => fst (run_bootstrap_values srt r l false true n (default_seeds n) w0)),
         (fun r => fst (run_thread_values (gv srt l) r w0)).
  split; [intros; apply det_value, det_thread_values|]. intros p w. unfold summary. rewrite summary_fst.
  rewrite (run_list_pure srt dist l n
     (fun r => fst (run_bootstrap_values srt r l false true n (default_seeds n) w0))
     (fun r => fst (run_thread_values (gv srt l) r w0))); auto.
  - intros. apply det_value, det_bootstrap_values.
  - intros. apply det_value, det_thread_values.
Qed.

Lemma summary_both : forall p p' w w' s s', scheduled p -> scheduled p' ->
    summary p w = Ok s -> summary p' w' = Ok s' -> s = s'.
Proof.
  intros p p' w w' s s' (S1 & S2 & S3) (S1' & S2' & S3') H H'.
  destruct (summary_pure w) as (gb & gt & _ & Hp). rewrite Hp in H, H'.
  pose proof (order_perm E _ _ _ S1 S1') as P1. pose proof (order_perm E _ _ _ S2 S2') as P2.
  pose proof (order_perm E _ _ _ S3 S3') as P3. unfold pure_frames in *.
  destruct (pure_base _ _ _ _ (order_of (fst (fst p)) _) _) as [(v & b)|] eqn:Hb; [|discriminate].
  destruct (pure_base_perm _ _ _ _ _ _ _ _ _ _ P1 P2 Hb) as (v' & b' & Hb' & Pv & Pb).
  rewrite Hb' in H'. cbn [rbind fst snd] in *.
  destruct tp.
  - destruct (pure_threads gt runs (order_of (snd p) _)) as [t|] eqn:Ht; [|discriminate].
    destruct (pure_threads gt runs (order_of (snd p') _)) as [t'|] eqn:Ht'; [|discriminate]. cbn [rbind] in *.
    apply pure_threads_inv in Ht. apply pure_threads_inv in Ht'.
    destruct (mapM_perm _ _ _ _ _ _ P3 Ht) as (t2 & Ht2 & Pt). rewrite Ht2 in Ht'. injection Ht' as ->.
    rewrite (frames_summary _ _ _ _ _ _ _ (frames_of_rel dist l true bsd v b t v' b' t' Hsym Pv Pb Pt)) in H.
    rewrite (det_value _ _ _ (det_error_values_summary _ _ _ _ _ _) w w') in H. congruence.
  - cbn [rbind] in *.
    rewrite (frames_summary _ _ _ _ _ _ _ (frames_of_rel dist l false bsd v b [] v' b' [] Hsym Pv Pb (perm_nil _))) in H.
    rewrite (det_value _ _ _ (det_error_values_summary _ _ _ _ _ _) w w') in H. congruence.
Qed.
Lemma summary_ok : forall p p' w w' s, scheduled p -> scheduled p' ->
    (tp = true -> forall r r', In r runs -> In r' runs -> nthreads r = nthreads r') ->
    summary p w = Ok s -> summary p' w' = Ok s.
Proof.
  intros p p' w w' s S S' Hc H.
  assert (H' : exists s', summary p' w' = Ok s').
  2:{ destruct H' as (s' & H'). rewrite (summary_both p p' w w' s s'); auto. }
  destruct S as (S1 & S2 & S3). destruct S' as (S1' & S2' & S3').
  destruct (summary_pure w) as (gb & gt & Hgt & Hp). rewrite Hp in *.
  pose proof (order_perm E _ _ _ S1 S1') as P1. pose proof (order_perm E _ _ _ S2 S2') as P2.
  pose proof (order_perm E _ _ _ S3 S3') as P3. unfold pure_frames in *.
  destruct (pure_base _ _ _ _ (order_of (fst (fst p)) _) _) as [(v & b)|] eqn:Hb; [|discriminate].
  destruct (pure_base_perm _ _ _ _ _ _ _ _ _ _ P1 P2 Hb) as (v' & b' & Hb' & Pv & Pb).
  rewrite Hb'. cbn [rbind fst snd] in *.
  destruct tp.
  - destruct (pure_threads gt runs (order_of (snd p) _)) as [t|] eqn:Ht; [|discriminate].
    destruct (pure_threads_perm gt runs _ _ t P3) as (t' & Ht' & Pt); auto.
    { intros r x Hx. rewrite <- (Hgt r w) in Hx. eapply thread_values_count; eauto. }
    rewrite Ht'. cbn [rbind] in *.
    rewrite (frames_summary _ _ _ _ _ _ _ (frames_of_rel dist l true bsd v b t v' b' t' Hsym Pv Pb Pt)) in H.
    rewrite (det_value _ _ _ (det_error_values_summary _ _ _ _ _ _) w w') in H. eauto.
  - cbn [rbind] in *.
    rewrite (frames_summary _ _ _ _ _ _ _ (frames_of_rel dist l false bsd v b [] v' b' [] Hsym Pv Pb (perm_nil _))) in H.
    rewrite (det_value _ _ _ (det_error_values_summary _ _ _ _ _ _) w w') in H. eauto.
Qed.
End Schedules.

(** Whatever order the tasks of the three parallel calls are completed in
    (None: not parallel), and whatever the state of the random number
    generator, the summaries are equal. *)
Theorem C43_schedule_free : forall E (norm : normals E) py3 srt dist l n tp bsd tv rm runs
    p1 p2 p3 q1 q2 q3 (w w' : world E) s s',
    (forall x y, dist x y = dist y x) ->
    Forall (fun p => schedules p (length runs)) [p1; p2; p3; q1; q2; q3] ->
    fst (run_list_error_summary norm py3 p1 p2 p3 srt dist l n tp bsd tv rm runs w) = Ok s ->
    fst (run_list_error_summary norm py3 q1 q2 q3 srt dist l n tp bsd tv rm runs w') = Ok s' ->
    s = s'.
Proof.
  intros E norm py3 srt dist l n tp bsd tv rm runs p1 p2 p3 q1 q2 q3 w w' s s' Hs Hf H H'.
  rewrite Forall_forall in Hf.
  apply (summary_both E norm py3 srt dist l n tp bsd tv rm runs Hs (p1, p2, p3) (q1, q2, q3) w w'); auto;
    (split; [|split]; apply Hf; cbn; tauto).
Qed.
Print Assumptions C43_schedule_free.

(** When no thread values are wanted, or the runs have the same number of
    threads, success is independent of the schedule as well. *)
Theorem C43_schedule_success : forall E (norm : normals E) py3 srt dist l n tp bsd tv rm runs
    p1 p2 p3 q1 q2 q3 (w w' : world E) s,
    (forall x y, dist x y = dist y x) ->
    Forall (fun p => schedules p (length runs)) [p1; p2; p3; q1; q2; q3] ->
    (tp = true -> forall r r', In r runs -> In r' runs ->
       option_map (@length (ext * Z)) (thread_min_max r) = option_map (@length (ext * Z)) (thread_min_max r')) ->
    fst (run_list_error_summary norm py3 p1 p2 p3 srt dist l n tp bsd tv rm runs w) = Ok s ->
    fst (run_list_error_summary norm py3 q1 q2 q3 srt dist l n tp bsd tv rm runs w') = Ok s.
Proof.
  intros E norm py3 srt dist l n tp bsd tv rm runs p1 p2 p3 q1 q2 q3 w w' s Hs Hf Hc H.
  rewrite Forall_forall in Hf.
  apply (summary_ok E norm py3 srt dist l n tp bsd tv rm runs Hs (p1, p2, p3) (q1, q2, q3) w w'); auto;
    (split; [|split]; apply Hf; cbn; tauto).
Qed.
Print Assumptions C43_schedule_success.

(** ** C67: with exactly two runs there is one pair, and the error summary fails
    whenever a pairwise diagnostic is asked for. *)
Theorem C67_two_runs : forall E (norm : normals E) p1 p2 p3 srt dist l n tp bsd rm tv r1 r2 py3 (w : world E) s,
    tp = true \/ bsd = true ->
    Forall (fun p => schedules p 2) [p1; p2; p3] ->
    fst (run_list_error_summary norm py3 p1 p2 p3 srt dist l n tp bsd tv rm [r1; r2] w) <> Ok s.
Proof.
  intros E norm p1 p2 p3 srt dist l n tp bsd rm tv r1 r2 py3 w s Ht Hf H. rewrite Forall_forall in Hf.
  destruct (summary_pure E norm py3 srt dist l n tp bsd tv rm [r1; r2] w) as (gb & gt & Hgt & Hp).
  specialize (Hp (p1, p2, p3) w). unfold summary in Hp. cbn [fst snd] in Hp. rewrite Hp in H. clear Hp.
  assert (Hlen : forall A B (g : A -> res B) xs o v, mapM (at_index g xs) o = Ok v -> length v = length o).
  { clear. intros A B g xs o. induction o as [|i o IH]; intros v H; cbn [mapM] in H.
    - injection H as <-. auto.
    - destruct (at_index g xs i); [|discriminate]. cbn [rbind] in H. destruct (mapM _ o); [|discriminate].
      injection H as <-. cbn. f_equal. auto. }
  assert (Ho : forall p : option (sched E), schedules p 2 -> length (order_of p 2) = 2%nat).
  { intros [p|] Hq; cbn in *; auto. apply Permutation_length in Hq. auto. }
  unfold pure_frames in H. cbn [length] in H.
  destruct (pure_base _ _ _ _ _ _) as [(v & b)|] eqn:Hb; [|discriminate]. cbn [rbind fst snd] in H.
  assert (Hlb : length b = 2%nat).
  { unfold pure_base in Hb. destruct (mapM (at_index (gv srt l) _) _) as [v0|]; [|discriminate]. cbn [rbind] in Hb.
    destruct (nonempty ValueError v0); [|discriminate]. cbn [rbind] in Hb.
    destruct (mapM (at_index gb _) _) as [b0|] eqn:Hb0; [|discriminate]. cbn [rbind] in Hb.
    destruct (nonempty KeyError b0) as [b1|] eqn:Hb1; [|discriminate]. cbn [rbind] in Hb. apply nonempty_ok in Hb1 as (-> & _).
    destruct (nonempty KeyError l); [|discriminate]. cbn [rbind] in Hb. injection Hb as <- <-. rewrite (Hlen _ _ _ _ _ _ Hb0).
    apply Ho, Hf. cbn. tauto. }
  assert (Hk : forall frames, (exists c cols, In (c, (1%nat, cols)) frames) ->
      fst (error_values_summary norm py3 frames tv rm w) = Ok s -> False).
  { intros frames (c & cols & Hin) He. unfold error_values_summary, wbind, wlift in He.
    match type of He with context [mapM ?f frames] => destruct (mapM f frames) as [g|] eqn:Hg end; [|discriminate].
    clear He. revert g Hg. induction frames as [|(c' & n' & cols') t IH]; [destruct Hin|]. intros g Hg. cbn [mapM] in Hg.
    destruct (summary_df py3 n' cols' tv rm) as [x|] eqn:Hx; [|discriminate]. cbn [rbind] in Hg.
    destruct Hin as [Heq|Hin].
    - injection Heq as -> -> ->. unfold summary_df in Hx. destruct (assertb _); discriminate.
    - match type of Hg with context [mapM ?f t] => destruct (mapM f t) as [g'|] eqn:Hg' end; [|discriminate]. eauto. }
  destruct tp.
  - destruct (pure_threads _ _ _) as [t|] eqn:Htt; [|discriminate]. cbn [rbind] in H. apply pure_threads_inv in Htt.
    apply Hlen in Htt. rewrite Ho in Htt by (apply Hf; cbn; tauto).
    revert H. apply Hk. unfold frames_of. exists CThreadKs. eexists. apply in_or_app. right. apply in_or_app. left.
    rewrite Htt. left. reflexivity.
  - cbn [rbind] in H. destruct Ht as [Hd|Hd]; [discriminate|subst bsd]. revert H. apply Hk. unfold frames_of. exists (CBsDist 1). eexists.
    apply in_or_app. right. apply in_or_app. right. rewrite Hlb. left. reflexivity.
Qed.
Print Assumptions C67_two_runs.

(** Where the summary without pairwise distances succeeds, the one with them
    raises ZeroDivisionError. *)
Theorem C67_two_runs_bs_stat_dist : forall E (norm : normals E) py3 p1 p2 p3 q1 q2 q3 srt dist l n tv rm r1 r2
    (w w' : world E) s,
    (forall x y, dist x y = dist y x) ->
    Forall (fun p => schedules p 2) [p1; p2; p3; q1; q2; q3] ->
    fst (run_list_error_summary norm py3 p1 p2 p3 srt dist l n false false tv rm [r1; r2] w) = Ok s ->
    fst (run_list_error_summary norm py3 q1 q2 q3 srt dist l n false true tv rm [r1; r2] w') = Raise ZeroDivisionError.
Proof.
  intros E norm py3 p1 p2 p3 q1 q2 q3 srt dist l n tv rm r1 r2 w w' s Hs Hf H.
  assert (H' : fst (run_list_error_summary norm py3 q1 q2 q3 srt dist l n false false tv rm [r1; r2] w') = Ok s).
  { eapply C43_schedule_success; eauto. discriminate. }
  clear H. rename H' into H.
  set (gb := fun r => fst (run_bootstrap_values srt r l false true n (default_seeds n) w')).
  set (gt := fun r => fst (run_thread_values (gv srt l) r w')).
  assert (Hgb : forall r (w : world E), fst (run_bootstrap_values srt r l false true n (default_seeds n) w) = gb r)
    by (intros; apply det_value, det_bootstrap_values).
  assert (Hgt : forall r (w : world E), fst (run_thread_values (gv srt l) r w) = gt r)
    by (intros; apply det_value, det_thread_values).
  rewrite summary_fst, (run_list_pure srt dist l n gb gt) in * by auto. unfold pure_frames in *.
  destruct (pure_base _ _ _ _ _ _) as [(v & b)|] eqn:Hb; [|discriminate]. cbn [rbind fst snd] in *.
  assert (Hlb : length b = 2%nat).
  { unfold pure_base in Hb. destruct (mapM (at_index (gv srt l) _) _) as [v0|]; [|discriminate]. cbn [rbind] in Hb.
    destruct (nonempty ValueError v0); [|discriminate]. cbn [rbind] in Hb.
    destruct (mapM (at_index gb _) _) as [b0|] eqn:Hb0; [|discriminate]. cbn [rbind] in Hb.
    destruct (nonempty KeyError b0) as [b1|] eqn:Hb1; [|discriminate]. cbn [rbind] in Hb. apply nonempty_ok in Hb1 as (-> & _).
    destruct (nonempty KeyError l); [|discriminate]. cbn [rbind] in Hb. injection Hb as <- <-.
    destruct (mapM_perm _ _ _ _ _ _ (order_perm E q2 None 2 ltac:(rewrite Forall_forall in Hf; apply Hf; cbn; tauto) I) Hb0)
      as (b1 & Hb1 & Hp). rewrite (Permutation_length Hp). cbn [order_of] in Hb1.
    change 2%nat with (length [r1; r2]) in Hb1 at 1. rewrite mapM_at_seq in Hb1. clear - Hb1. cbn [mapM] in Hb1.
    destruct (gb r1); [|discriminate]. cbn [rbind] in Hb1. destruct (gb r2); [|discriminate]. injection Hb1 as <-. auto. }
  unfold frames_of in *. cbn [app map] in *. rewrite Hlb. change (npairs 2) with 1%nat.
  unfold error_values_summary, wbind, wlift in *. cbn [mapM] in *.
  destruct (summary_df py3 (length v) _ tv rm) as [s1|] eqn:H1; [|discriminate].
  assert (H3 : forall c, length c = length l -> summary_df py3 1 c tv rm = Raise ZeroDivisionError).
  { intros c Hc. unfold summary_df in *. destruct tv as [t|]; auto.
    rewrite rows_of_length in H1. rewrite Hc. destruct (assertb _); [reflexivity|discriminate]. }
  clear H1. destruct (summary_df py3 (length (map _ b)) _ tv rm) as [s2|] eqn:H2; [|discriminate]. cbn [rbind].
  rewrite H3 by (unfold pair_columns; rewrite map_length, seq_length; auto). reflexivity.
Qed.
Print Assumptions C67_two_runs_bs_stat_dist.
