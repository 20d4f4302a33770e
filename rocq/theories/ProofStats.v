(** Lemmas on the statistics of ModelStats.v. *)
From Coq Require Import Lra.
From Verif Require Import Base ModelRun ModelBoot ModelParallel ModelReal ModelStats
     ProofBase ProofMonad ProofRun SpecReal ProofReal ProofInterp ProofParallel.
Local Open Scope R_scope.

Lemma F2_length : forall A B (P : A -> B -> Prop) l m, Forall2 P l m -> length l = length m.
Proof. induction 1; cbn; auto. Qed.
Lemma mapM_exists : forall A B (f : A -> res B) l, (forall x, In x l -> exists v, f x = Ok v) ->
    exists ys, mapM f l = Ok ys.
Proof.
  induction l as [|x t IH]; intros H; cbn; eauto. destruct (H x) as [v ->]; [left; auto|]. cbn.
  destruct IH as [ys ->]; [intros; apply H; right; auto|]. cbn. eauto.
Qed.
Lemma all_finite_some : forall xs, all_finite (map Some xs) = Some xs.
Proof. induction xs as [|x t IH]; cbn; auto. rewrite IH. auto. Qed.
Lemma all_finite_inv : forall l xs, all_finite l = Some xs -> l = map Some xs.
Proof.
  induction l as [|[x|] t IH]; intros xs H; cbn in H; try discriminate.
  - injection H as <-. auto.
  - destruct (all_finite t) as [ys|]; [|discriminate]. injection H as <-. cbn. f_equal. auto.
Qed.
Lemma all_finite_none : forall l, all_finite l = None -> In None l.
Proof.
  induction l as [|[x|] t IH]; intros H; cbn in H; try discriminate.
  - right. apply IH. destruct (all_finite t); [discriminate|auto].
  - left. auto.
Qed.
Lemma all_finite_in : forall l, In None l -> all_finite l = None.
Proof.
  induction l as [|[x|] t IH]; intros H; cbn; auto; [destruct H|].
  destruct H as [H|H]; [discriminate|]. rewrite IH; auto.
Qed.
Lemma finite_part_some : forall xs, finite_part (map Some xs) = xs.
Proof. induction xs; cbn; auto. f_equal. auto. Qed.
Lemma finite_part_perm : forall a b, Permutation a b -> Permutation (finite_part a) (finite_part b).
Proof.
  intros a b H. unfold finite_part. rewrite H. apply Permutation_refl.
Qed.
Lemma mean_mean_of : forall xs, xs <> [] -> mean_of xs = Some (mean xs).
Proof. intros [|x t] H; [congruence|reflexivity]. Qed.

Lemma mean_affine : forall c d xs, xs <> [] -> mean (map (fun x => c + d * x) xs) = c + d * mean xs.
Proof.
  intros c d xs H. unfold mean. rewrite map_length. change sumR with rsum.
  assert (Hn : 0 < INR (length xs)) by (apply lt_0_INR; destruct xs; [congruence|cbn; lia]).
  rewrite (rsum_plus _ (fun _ => c) (fun x => d * x)), rsum_const.
  rewrite (rsum_scale _ (fun x => x)), map_id. field. lra.
Qed.
Lemma variance_affine : forall c d xs, xs <> [] ->
    variance (map (fun x => c + d * x) xs) = d ^ 2 * variance xs.
Proof.
  intros c d xs H. unfold variance. rewrite mean_affine, map_map, map_length by auto.
  change sumR with rsum. unfold Rdiv. rewrite <- Rmult_assoc. f_equal.
  rewrite <- (rsum_scale _ (fun x => (x - mean xs) ^ 2)). f_equal. apply map_ext. intros x. ring.
Qed.

Lemma std_variance : forall xs, (2 <= length xs)%nat -> std_of xs = Some (sqrt (variance xs)).
Proof.
  intros xs H. unfold std_of. destruct (Nat.leb_spec (length xs) 1); [lia|]. reflexivity.
Qed.
Lemma std_none : forall xs, (length xs <= 1)%nat -> std_of xs = None.
Proof. intros xs H. unfold std_of. destruct (Nat.leb_spec (length xs) 1); [auto|lia]. Qed.

Lemma flip_row_some : forall xs, xs <> [] ->
    flip_row (map Some xs) = map Some (map (fun x => 2 * mean xs - x) xs).
Proof.
  intros xs H. unfold flip_row, np_mean. rewrite all_finite_some, mean_mean_of by auto.
  rewrite !map_map. apply map_ext. intros x. reflexivity.
Qed.
Lemma flip_row_none : forall l, In None l -> flip_row l = map (fun _ => None) l.
Proof.
  intros l H. unfold flip_row, np_mean. rewrite all_finite_in by auto. apply map_ext. intros. reflexivity.
Qed.
Lemma flip_as_affine : forall xs (m : R), map (fun x => 2 * m - x) xs = map (fun x => 2 * m + -1 * x) xs.
Proof. intros. apply map_ext. intros. ring. Qed.
Lemma flip_std : forall row, np_std (flip_row row) = np_std row.
Proof.
  intros row. unfold np_std at 2. destruct (all_finite row) as [xs|] eqn:Hf.
  - apply all_finite_inv in Hf as ->. destruct xs as [|x t]; [reflexivity|].
    rewrite flip_row_some by discriminate. unfold np_std. rewrite all_finite_some.
    set (xs := x :: t). destruct (Nat.le_gt_cases (length xs) 1) as [H|H].
    + rewrite !std_none; rewrite ?map_length; auto.
    + rewrite !std_variance by (rewrite ?map_length; lia).
      rewrite flip_as_affine, variance_affine by discriminate. do 2 f_equal. ring.
  - apply all_finite_none in Hf. rewrite flip_row_none by auto. unfold np_std.
    rewrite all_finite_in; auto. apply in_map_iff. exists None. auto.
Qed.

(** ** Quantiles of samples *)

Lemma finterp_go_some : forall t x x0 f0, x0 <= x ->
    finterp_go x x0 (Some f0) (map (fun p => (fst p, Some (snd p))) t) = Some (interp_go x x0 f0 t).
Proof.
  induction t as [|[x1 f1] t IH]; intros x x0 f0 H; cbn [finterp_go map fst snd interp_go]; auto.
  destruct (Rlt_dec x x1).
  - destruct (Req_EM_T x0 x); auto. cbn [fsub lift2 fdiv]. destruct (Req_EM_T (x1 - x0) 0); [lra|]. reflexivity.
  - apply IH. lra.
Qed.
Lemma finterp_some : forall x xs fs, combine xs fs <> [] ->
    finterp x xs (map Some fs) = Ok (Some (interp x xs fs)).
Proof.
  intros x xs fs H. unfold finterp, interp.
  assert (Hc : combine xs (map Some fs) = map (fun p => (fst p, Some (snd p))) (combine xs fs)).
  { clear H. revert fs. induction xs as [|a t IH]; intros [|b u]; cbn; auto. f_equal. auto. }
  rewrite Hc. destruct (combine xs fs) as [|[x0 f0] t]; [congruence|]. cbn [map fst snd].
  destruct (Rlt_dec x x0); auto. rewrite finterp_go_some by lra. auto.
Qed.
Lemma np_sort_some : forall srt xs, np_sort srt (map Some xs) = map Some (take 0 xs (srt xs)).
Proof.
  intros. unfold np_sort. rewrite finite_part_some, map_length, Nat.sub_diag. cbn. apply app_nil_r.
Qed.
Lemma cdf_length : forall n, length (cdf n) = n.
Proof. intros. unfold cdf. rewrite map_length, seq_length. auto. Qed.
Lemma nth_cdf : forall n k, (k < n)%nat -> nth k (cdf n) 0 = (INR k + 1 / 2) / INR n.
Proof. intros n k H. unfold cdf. rewrite nth_map_seq by auto. lra. Qed.
Lemma cdf_mono : forall n i k, (i < k < n)%nat -> nth i (cdf n) 0 < nth k (cdf n) 0.
Proof.
  intros n i k H. rewrite !nth_cdf by lia. assert (0 < INR n) by (apply lt_0_INR; lia).
  unfold Rdiv. apply Rmult_lt_compat_r; [apply Rinv_0_lt_compat; auto|].
  assert (INR i < INR k) by (apply lt_INR; lia). lra.
Qed.
Lemma interp_start : forall xs fs x, length xs = length fs -> x < nth 0 xs 0 -> xs <> [] ->
    interp x xs fs = nth 0 fs 0.
Proof.
  intros [|a xs] [|b fs] x Hl Hx Hne; try discriminate; try congruence. cbn in *.
  destruct (Rlt_dec x a); [auto|lra].
Qed.

(** The value of [interp] at a node. *)
Lemma interp_node : forall xs fs k, length xs = length fs ->
    (forall i k, (i < k < length xs)%nat -> nth i xs 0 < nth k xs 0) -> (k < length xs)%nat ->
    interp (nth k xs 0) xs fs = nth k fs 0.
Proof.
  intros xs fs k Hl Hm Hk. destruct (Nat.lt_ge_cases (S k) (length xs)) as [H|H].
  - rewrite (interp_at _ _ _ k); auto.
    + replace (nth k xs 0 - nth k xs 0) with 0 by lra. lra.
    + split; [lra|]. apply Hm. lia.
  - replace k with (length xs - 1)%nat by lia. apply interp_end; auto; [|lra].
    intros ->. cbn in Hk. lia.
Qed.

Lemma interp_cdf_quantile : forall s, s <> [] -> quantile_of s (fun x => interp x (cdf (length s)) s).
Proof.
  intros s Hne. unfold quantile_of. set (n := length s).
  assert (Hn : (0 < n)%nat) by (unfold n; destruct s; [congruence|cbn; lia]).
  assert (Hr : 0 < INR n) by (apply lt_0_INR; auto).
  assert (Hl : length (cdf n) = length s) by apply cdf_length.
  assert (Hm : forall i k, (i < k < length (cdf n))%nat -> nth i (cdf n) 0 < nth k (cdf n) 0).
  { intros i k Hik. rewrite cdf_length in Hik. apply cdf_mono. auto. }
  assert (Hcne : cdf n <> []) by (intros H; rewrite H in Hl; fold n in Hl; cbn in Hl; lia).
  split; [|split].
  - intros k u Hk Hu. destruct (Req_dec u 1) as [->|Hu1].
    + replace ((INR k + 1 / 2 + 1) / INR n) with (nth (S k) (cdf n) 0).
      * rewrite interp_node; auto; rewrite ?cdf_length; auto. ring.
      * rewrite nth_cdf, S_INR by auto. f_equal. ring.
    + rewrite (interp_at _ _ _ k); auto; rewrite ?cdf_length; auto.
      * rewrite !nth_cdf, S_INR by lia. field. lra.
      * rewrite !nth_cdf, S_INR by lia. unfold Rdiv. assert (0 < / INR n) by (apply Rinv_0_lt_compat; auto).
        split; [apply Rmult_le_compat_r; lra|apply Rmult_lt_compat_r; lra].
  - intros x Hx. assert (H0 : nth 0 (cdf n) 0 = 1 / 2 / INR n) by (rewrite nth_cdf by auto; cbn [INR]; f_equal; ring).
    destruct (Rlt_dec x (nth 0 (cdf n) 0)).
    + apply interp_start; auto.
    + assert (x = nth 0 (cdf n) 0) as -> by lra. apply interp_node; auto. rewrite cdf_length. auto.
  - intros x Hx. rewrite interp_end; auto.
    + rewrite cdf_length. auto.
    + rewrite cdf_length, nth_cdf, minus_INR by lia. cbn [INR]. lra.
Qed.

(** A quantile function of sorted samples does not decrease. *)
Lemma interp_cdf_mono : forall s, StronglySorted Rle s -> forall x y, x <= y ->
    interp x (cdf (length s)) s <= interp y (cdf (length s)) s.
Proof.
  intros s Hs x y Hxy. apply interp_mono; auto. unfold increasing.
  assert (Hl : length (cdf (length s)) = length s) by apply cdf_length.
  assert (Hg : forall l : list (R * R), (forall i k, (i < k < length l)%nat ->
               fst (nth i l (0, 0)) < fst (nth k l (0, 0)) /\ snd (nth i l (0, 0)) <= snd (nth k l (0, 0))) ->
               StronglySorted (fun a b : R * R => fst a < fst b /\ snd a <= snd b) l).
  { induction l as [|p l IH]; intros H; constructor.
    - apply IH. intros i k Hik. apply (H (S i) (S k)). cbn [length]. lia.
    - rewrite Forall_forall. intros q Hq. destruct (In_nth _ _ (0, 0) Hq) as (k & Hk & <-).
      apply (H 0%nat (S k)). cbn [length]. lia. }
  apply Hg. intros i k Hik. rewrite combine_length, Hl, Nat.min_id in Hik.
  rewrite !combine_nth by auto. cbn [fst snd]. split; [apply cdf_mono; auto|].
  clear - Hs Hik. revert i k Hik. induction s as [|a s IH]; intros i k Hik; [cbn in *; lia|].
  apply StronglySorted_inv in Hs as [SS FF]. rewrite Forall_forall in FF.
  destruct k as [|k]; [lia|]. destruct i as [|i]; cbn [nth length] in *.
  - apply FF, nth_In. lia.
  - apply IH; auto. lia.
Qed.
Lemma interp_cdf_bounds : forall s lo hi x, s <> [] -> StronglySorted Rle s -> (forall v, In v s -> lo <= v <= hi) ->
    lo <= interp x (cdf (length s)) s <= hi.
Proof.
  intros s lo hi x Hne Hs Hb.
  assert (Hn : (0 < length s)%nat) by (destruct s; [congruence|cbn; lia]).
  destruct (interp_cdf_quantile s Hne) as (_ & Q2 & Q3). cbn beta in Q2, Q3.
  pose proof (interp_cdf_mono s Hs) as Hm.
  split.
  - apply Rle_trans with (interp (Rmin x (1 / 2 / INR (length s))) (cdf (length s)) s).
    + rewrite Q2 by apply Rmin_r. apply Hb, nth_In. auto.
    + apply Hm, Rmin_l.
  - apply Rle_trans with (interp (Rmax x ((INR (length s) - 1 / 2) / INR (length s))) (cdf (length s)) s).
    + apply Hm, Rmax_l.
    + rewrite Q3 by apply Rmax_r. apply Hb, nth_In. lia.
Qed.

(** Quantile functions are determined by the samples. *)
Lemma quantile_unique : forall s q q', s <> [] -> quantile_of s q -> quantile_of s q' -> forall x, q x = q' x.
Proof.
  intros s q q' Hne (Q1 & Q2 & Q3) (P1 & P2 & P3) x. set (n := length s) in *.
  assert (Hn : (0 < n)%nat) by (unfold n; destruct s; [congruence|cbn; lia]).
  assert (Hr : 0 < INR n) by (apply lt_0_INR; auto).
  destruct (Rle_dec x (1 / 2 / INR n)) as [H|H]; [rewrite Q2, P2; auto|].
  destruct (Rle_dec ((INR n - 1 / 2) / INR n) x) as [H'|H']; [rewrite Q3, P3; auto|].
  (* x is between two nodes *)
  set (y := x * INR n - 1 / 2).
  assert (Hx : x = (y + 1 / 2) / INR n) by (unfold y; field; lra).
  assert (Hy0 : 0 < y).
  { unfold y. apply Rnot_le_lt in H. apply (Rmult_lt_compat_r (INR n)) in H; auto.
    unfold Rdiv in H. rewrite Rmult_assoc, Rinv_l in H by lra. lra. }
  assert (Hy1 : y < INR n - 1).
  { unfold y. apply Rnot_le_lt in H'. apply (Rmult_lt_compat_r (INR n)) in H'; auto.
    unfold Rdiv in H'. rewrite Rmult_assoc, Rinv_l in H' by lra. lra. }
  assert (Hk : exists k u, (S k < n)%nat /\ 0 <= u <= 1 /\ y = INR k + u).
  { clear - Hy0 Hy1 Hn. clearbody y. clearbody n. induction n as [|m IH]; [lia|]. rewrite S_INR in Hy1.
    destruct (Rlt_dec y (INR m - 1)) as [Hl|Hl].
    - destruct m as [|m]; [cbn in Hl; lra|]. destruct IH as (k & u & K1 & K2 & K3); auto; [lia|].
      exists k, u. split; auto.
    - destruct m as [|m]; [cbn in Hy1; lra|]. exists m, (y - INR m).
      pose proof (S_INR m). split; [lia|]. split; lra. }
  destruct Hk as (k & u & K1 & K2 & K3).
  assert (Hx' : x = (INR k + 1 / 2 + u) / INR n) by (rewrite Hx, K3; f_equal; ring).
  rewrite Hx', Q1, P1; auto.
Qed.

(** Reflection: the quantiles of [c - x]. *)
Lemma quantile_reflect : forall s q c, s <> [] -> quantile_of s q ->
    quantile_of (rev (map (fun v => c - v) s)) (fun x => c - q (1 - x)).
Proof.
  intros s q c Hne (Q1 & Q2 & Q3). unfold quantile_of. rewrite rev_length, map_length. set (n := length s) in *.
  assert (Hn : (0 < n)%nat) by (unfold n; destruct s; [congruence|cbn; lia]).
  assert (Hr : 0 < INR n) by (apply lt_0_INR; auto).
  assert (Hrev : forall k, (k < n)%nat -> nth k (rev (map (fun v => c - v) s)) 0 = c - nth (n - 1 - k) s 0).
  { intros k Hk. rewrite rev_nth by (rewrite map_length; auto). rewrite map_length. fold n.
    rewrite (map_nth_in _ _ _ _ 0) by (fold n; lia). replace (n - S k)%nat with (n - 1 - k)%nat by lia. auto. }
  split; [|split].
  - intros k u Hk Hu. rewrite !Hrev by lia.
    assert (H1 : 1 - (INR k + 1 / 2 + u) / INR n = (INR (n - 2 - k) + 1 / 2 + (1 - u)) / INR n).
    { rewrite !minus_INR by lia. cbn [INR]. field. lra. }
    rewrite H1, Q1 by (try lia; lra). replace (S (n - 2 - k)) with (n - 1 - k)%nat by lia.
    replace (n - 1 - S k)%nat with (n - 2 - k)%nat by lia. ring.
  - intros x Hx. rewrite Hrev by lia. rewrite Q3, Nat.sub_0_r; auto.
    replace ((INR n - 1 / 2) / INR n) with (1 - 1 / 2 / INR n) by (field; lra). lra.
  - intros x Hx. rewrite Hrev by lia. replace (n - 1 - (n - 1))%nat with 0%nat by lia. rewrite Q2; auto.
    replace ((INR n - 1 / 2) / INR n) with (1 - 1 / 2 / INR n) in Hx by (field; lra). lra.
Qed.

(** ** Bootstrap values *)

Lemma bootstrap_values_inv : forall E srt r l ns fs n seeds (w : world E) rows w',
    run_bootstrap_values srt r l ns fs n seeds w = (Ok rows, w') ->
    exists cols, bootstrap_columns (fun rr => run_estimators srt rr l None) r ns n seeds w = (Ok cols, w') /\
      rows = (if fs then map flip_row (rows_of (length l) cols) else rows_of (length l) cols).
Proof.
  intros E srt r l ns fs n seeds w rows w' H. unfold run_bootstrap_values in H.
  apply wbind_Ok in H as (cols & w1 & H1 & H2). injection H2 as H2 H3. subst. eauto.
Qed.
Lemma bootstrap_columns_length : forall E A (est : run -> res A) r ns n seeds (w : world E) cols w',
    bootstrap_columns est r ns n seeds w = (Ok cols, w') -> length cols = n /\ length seeds = n.
Proof.
  intros E A est r ns n seeds w cols w' H. unfold bootstrap_columns in H.
  apply wbind_Ok in H as (u & w1 & H1 & H). apply wbind_Ok in H as (ths & w2 & H2 & H).
  unfold wassert, wlift, assertb in H1. destruct (Nat.eqb_spec (length seeds) n) as [Hn|]; [|discriminate].
  assert (Hlen : forall A B (f : A -> W E B) l w ys w', wmapM f l w = (Ok ys, w') -> length ys = length l).
  { clear. induction l as [|x t IH]; intros w ys w' H; cbn [wmapM] in H.
    - injection H as <- _. auto.
    - apply wbind_Ok in H as (y & w1 & H1 & H). apply wbind_Ok in H as (zs & w2 & H2 & H).
      injection H as <- _. cbn. f_equal. eauto. }
  rewrite (Hlen _ _ _ _ _ _ _ H). auto.
Qed.
Lemma rows_of_length : forall k cols, length (rows_of k cols) = k.
Proof. intros. unfold rows_of. rewrite map_length, seq_length. auto. Qed.
Lemma nth_rows_of : forall k cols j, (j < k)%nat -> nth_error (rows_of k cols) j = Some (nth_row cols j).
Proof.
  intros k cols j H. unfold rows_of. erewrite map_nth_error; eauto.
  rewrite (nth_error_nth' _ 0%nat) by (rewrite seq_length; auto). rewrite seq_nth by auto. auto.
Qed.
Lemma nth_row_length : forall cols j, length (nth_row cols j) = length cols.
Proof. intros. apply map_length. Qed.
Lemma flip_row_length : forall row, length (flip_row row) = length row.
Proof. intros. apply map_length. Qed.

Lemma run_estimators_length : forall srt r l sim v, run_estimators srt r l sim = Ok v -> length v = length l.
Proof.
  intros srt r l sim v H. unfold run_estimators in H. destruct (get_logw r sim); [|discriminate]. cbn in H.
  apply mapM_Ok in H. symmetry. eapply F2_length; eauto.
Qed.

(** Bootstrap confidence intervals, row by row. *)
Lemma ci_run : forall E srt r l ns fs n seeds (w : world E) rows w1 ts c,
    sorts srt -> run_bootstrap_values srt r l ns fs n seeds w = (Ok rows, w1) ->
    run_estimators srt r l None = Ok ts -> (0 < n)%nat ->
    exists out, run_ci_bootstrap srt r l c ns fs n seeds w = (Ok out, w1) /\ length out = length l /\
      (forall j, nth_error ts j = Some None -> nth_error out j = Some None) /\
      forall j xs t, nth_error rows j = Some (map Some xs) -> nth_error ts j = Some (Some t) ->
        nth_error out j = Some (Some (2 * t - interp (1 - c) (cdf n) (take 0 xs (srt xs)))) /\
        length xs = n.
Proof.
  intros E srt r l ns fs n seeds w rows w1 ts c Hs Hb Ht Hn.
  destruct (bootstrap_values_inv _ _ _ _ _ _ _ _ _ _ _ Hb) as (cols & Hc & Hrows).
  destruct (bootstrap_columns_length _ _ _ _ _ _ _ _ _ _ Hc) as [Hlc _].
  assert (Hlr : length rows = length l).
  { rewrite Hrows. destruct fs; rewrite ?map_length; apply rows_of_length. }
  assert (Hrl : forall row, In row rows -> length row = n).
  { intros row Hin. rewrite Hrows in Hin. unfold rows_of in Hin.
    destruct fs; [apply in_map_iff in Hin as (r0 & <- & Hin); rewrite flip_row_length|];
      apply in_map_iff in Hin as (j & <- & _); rewrite nth_row_length; auto. }
  pose proof (run_estimators_length _ _ _ _ _ Ht) as Hlt.
  unfold run_ci_bootstrap. rewrite (wbind_run _ _ _ _ _ _ _ _ Hb). unfold wbind, wlift. rewrite Ht.
  set (g := fun p : option R * list fl => let '(t, row) := p in
              let! q := finterp (1 - c) (cdf n) (np_sort srt row) in Ok (fsub (fmul t (Some 2)) q)).
  assert (Hg : forall p, In p (combine ts rows) -> exists v, g p = Ok v).
  { intros [t row] Hin. apply in_combine_r in Hin. apply Hrl in Hin. unfold g, finterp.
    destruct (combine (cdf n) (np_sort srt row)) as [|[x0 f0] u] eqn:Hcb; [|cbn; eauto].
    exfalso. apply (f_equal (@length _)) in Hcb. rewrite combine_length, cdf_length in Hcb. cbn [length] in Hcb.
    unfold np_sort in Hcb. rewrite app_length, map_length, take_length, repeat_length in Hcb.
    rewrite (Permutation_length (proj1 Hs (finite_part row))), seq_length in Hcb.
    assert (length (finite_part row) <= length row)%nat; [|lia].
    clear. unfold finite_part. induction row as [|[x|] t IH]; cbn in *; lia. }
  destruct (mapM_exists _ _ g (combine ts rows) Hg) as [out Hout]. exists out.
  fold g. change (mapM _ (combine ts rows)) with (mapM g (combine ts rows)). rewrite Hout. split; auto.
  apply mapM_Ok in Hout.
  assert (Hn' : forall l1 l2 j p, Forall2 (fun x y => g x = Ok y) l1 l2 -> nth_error l1 j = Some p ->
            exists y, nth_error l2 j = Some y /\ g p = Ok y).
  { clear. intros l1 l2 j p H. revert j. induction H; intros [|j] Hp; cbn in *; try discriminate.
    - injection Hp as <-. eauto.
    - auto. }
  assert (Hcj : forall j t row, nth_error rows j = Some row -> nth_error ts j = Some t ->
                nth_error (combine ts rows) j = Some (t, row)).
  { clear. intros j. revert rows ts. induction j as [|j IH]; intros [|a rows] [|b ts] t row H1 H2; cbn in *;
      try discriminate; [congruence|auto]. }
  split; [|split].
  - rewrite <- (F2_length _ _ _ _ _ Hout), combine_length. lia.
  - intros j Hj. assert (Hjr : exists row, nth_error rows j = Some row).
    { destruct (nth_error rows j) eqn:He; eauto. apply nth_error_None in He.
      assert (j < length ts)%nat by (apply nth_error_Some; congruence). lia. }
    destruct Hjr as [row Hrow].
    destruct (Hn' _ _ _ _ Hout (Hcj _ _ _ Hrow Hj)) as (y & Hy & Hgy). rewrite Hy. f_equal.
    unfold g in Hgy. destruct (finterp _ _ _); [|discriminate]. cbn in Hgy. injection Hgy as <-. auto.
  - intros j xs t Hj Htj.
    assert (Hxn : length xs = n).
    { assert (length (map (@Some R) xs) = n) by (apply Hrl; eapply nth_error_In; eauto).
      rewrite map_length in H. auto. }
    split; auto.
    destruct (Hn' _ _ _ _ Hout (Hcj _ _ _ Hj Htj)) as (y & Hy & Hgy). rewrite Hy. f_equal.
    unfold g in Hgy. rewrite np_sort_some, finterp_some in Hgy.
    + cbn in Hgy. injection Hgy as <-. f_equal. ring.
    + intros H. apply (f_equal (@length _)) in H.
      rewrite combine_length, cdf_length, take_length, (Permutation_length (proj1 Hs xs)), seq_length in H.
      cbn [length] in H. lia.
Qed.
