(** Weights, estimators and errors of a run in other units. *)
From Coq Require Import Reals Lra.
From Verif Require Import Base ModelRun ModelReal ModelBoot ModelStats ModelMono ModelUnits ProofBase
     ProofMonad ProofMono ProofReal SpecReal.
Local Open Scope R_scope.

Lemma map2_map_l : forall A A' B C (f : A' -> B -> C) (g : A -> A') a b,
    map2 f (map g a) b = map2 (fun x y => f (g x) y) a b.
Proof.
  unfold map2. induction a as [|x t IH]; intros [|y b]; simpl; auto. rewrite IH. auto.
Qed.
Lemma map2_map_r : forall A B B' C (f : A -> B' -> C) (g : B -> B') a b,
    map2 f a (map g b) = map2 (fun x y => f x (g y)) a b.
Proof.
  unfold map2. induction a as [|x t IH]; intros [|y b]; simpl; auto. rewrite IH. auto.
Qed.
Lemma map_map2 : forall A B C D (f : A -> B -> C) (g : C -> D) a b,
    map g (map2 f a b) = map2 (fun x y => g (f x y)) a b.
Proof. intros. unfold map2. rewrite map_map. auto. Qed.
Lemma map2_ext : forall A B C (f g : A -> B -> C) a b, (forall x y, f x y = g x y) -> map2 f a b = map2 g a b.
Proof. intros. unfold map2. apply map_ext. intros. apply H. Qed.
Lemma rsum_map2_scale : forall A B (f : A -> B -> R) c a b,
    rsum (map2 (fun x y => c * f x y) a b) = c * rsum (map2 f a b).
Proof. intros. unfold map2. apply (rsum_scale _ (fun p => f (fst p) (snd p))). Qed.

Section Units.
Variables c k : Z.
Hypothesis Hk : (0 < k)%Z.
Notation C := (fval c).
Notation K := (IZR k).
Notation sh := (map (fun x => x + C)).

Lemma K_pos : 0 < K.
Proof. apply IZR_lt; auto. Qed.
Lemma fval_mul : forall z, fval (k * z) = K * fval z.
Proof. intros. unfold fval. rewrite mult_IZR. ring. Qed.
Lemma rmax_shift : forall l, l <> [] -> rmax (sh l) = rmax l + C.
Proof.
  intros l Hl. destruct (rmax_spec l Hl) as [H1 H2]. apply rmax_unique.
  - apply in_map_iff. exists (rmax l). auto.
  - intros x Hx. apply in_map_iff in Hx as (y & <- & Hy). apply H2 in Hy. lra.
Qed.
Lemma rel_shift : forall l, rel (sh l) = rel l.
Proof.
  intros l. destruct l as [|a t]; auto. unfold rel. rewrite rmax_shift by congruence.
  rewrite map_map. apply map_ext. intros x. f_equal. lra.
Qed.
Lemma lse_shift : forall l, l <> [] -> lse (sh l) = lse l + C.
Proof.
  intros l Hl. unfold lse. rewrite map_map.
  rewrite (rsum_ext_in _ (fun x => exp (x + C)) (fun x => exp C * exp x))
    by (intros; rewrite exp_plus; ring).
  rewrite rsum_scale. rewrite ln_mult, ln_exp; [ring|apply exp_pos|].
  apply rsum_pos; [destruct l; simpl; congruence|].
  intros x Hx. apply in_map_iff in Hx as (y & <- & _). apply exp_pos.
Qed.
Lemma logw_units : forall r sim, get_logw (in_units c k r) sim = rmap sh (get_logw r sim).
Proof.
  intros r sim. unfold get_logw, in_units. cbn [run_by nlive_array logl].
  destruct (get_logx (nlive_array r) sim) as [logx|e]; auto. cbn [rbind].
  assert (Hl : map fval (map (fun x => (x + c)%Z) (logl r)) = sh (map fval (logl r))).
  { rewrite !map_map. apply map_ext. intros. apply fval_add. }
  rewrite Hl, !map_length. destruct (length logx =? length (logl r))%nat; auto.
  destruct (length (logl r) =? 1)%nat; auto. cbn [rmap]. f_equal.
  rewrite map2_map_r, map_map2. apply map2_ext. intros. lra.
Qed.
Lemma logw_nonempty : forall r sim logw, get_logw r sim = Ok logw -> draws_ok sim (length (nlive_array r)) ->
    logw <> [].
Proof.
  intros r sim logw H Hd Hn. subst. destruct (get_logw_facts r sim [] H Hd) as (H1 & _ & H2 & H3 & _).
  cbn [length] in H3. rewrite <- H3 in H2. destruct (nlive_array r); [congruence|discriminate].
Qed.
Lemma column_units : forall th i,
    column (map (map (Z.mul k)) th) i = rmap (map (Rmult K)) (column th i).
Proof.
  intros th i. unfold column.
  assert (Hd : length (hd [] (map (map (Z.mul k)) th)) = length (hd [] th)).
  { destruct th; auto. cbn [map hd]. apply map_length. }
  rewrite Hd. match goal with |- (if ?b then _ else _) = _ => destruct b end; auto.
  cbn [rmap]. f_equal. rewrite !map_map. apply map_ext. intros row.
  rewrite <- fval_mul. f_equal.
  rewrite <- (map_nth (Z.mul k) row 0%Z), Z.mul_0_r. auto.
Qed.
Lemma radii_units : forall th, radii (map (map (Z.mul k)) th) = map (Rmult K) (radii th).
Proof.
  intros th. unfold radii. rewrite !map_map. apply map_ext. intros row.
  rewrite map_map.
  rewrite (rsum_ext_in _ (fun x => fval (k * x) ^ 2) (fun x => K ^ 2 * fval x ^ 2))
    by (intros; rewrite fval_mul; ring).
  rewrite rsum_scale. pose proof K_pos.
  assert (Hn : 0 <= rsum (map (fun z => fval z ^ 2) row)).
  { apply rsum_nonneg. intros x Hx. apply in_map_iff in Hx as (z & <- & _). apply pow2_ge_0. }
  rewrite sqrt_mult by (auto; apply pow2_ge_0). rewrite sqrt_pow2 by lra. auto.
Qed.
Lemma wmean_units : forall w x, wmean w (map (Rmult K) x) = K * wmean w x.
Proof.
  intros. unfold wmean. rewrite map2_map_r.
  rewrite (map2_ext _ _ _ _ (fun x y => K * (x * y))) by (intros; ring).
  rewrite rsum_map2_scale. unfold Rdiv. ring.
Qed.
Lemma interp_go_units : forall t p x0 f0,
    interp_go p x0 (K * f0) (map (fun q => (fst q, K * snd q)) t) = K * interp_go p x0 f0 t.
Proof.
  induction t as [|[x1 f1] t IH]; intros; auto. cbn [map interp_go fst snd].
  destruct (Rlt_dec p x1); [|apply IH]. destruct (Req_EM_T x0 p); auto. unfold Rdiv. ring.
Qed.
Lemma interp_units : forall p xs fs, interp p xs (map (Rmult K) fs) = K * interp p xs fs.
Proof.
  intros. unfold interp. rewrite mono_combine. destruct (combine xs fs) as [|[x0 f0] t]; cbn [map fst snd]; [ring|].
  destruct (Rlt_dec p x0); auto. apply interp_go_units.
Qed.
Lemma take_units : forall l idx, take 0 (map (Rmult K) l) idx = map (Rmult K) (take 0 l idx).
Proof.
  intros. unfold take. rewrite map_map. apply map_ext. intros i.
  rewrite <- (map_nth (Rmult K) l 0 i), Rmult_0_r. auto.
Qed.
Lemma srt_affine : forall srt a b l, compares srt -> 0 < a -> srt (map (fun x => a * x + b) l) = srt l.
Proof.
  intros srt a b l Hs Ha. apply Hs; rewrite map_length; auto. intros i j Hi Hj.
  assert (Hn : forall m, (m < length l)%nat -> nth m (map (fun x => a * x + b) l) 0 = a * nth m l 0 + b).
  { intros m Hm. rewrite (nth_indep _ 0 (a * 0 + b)) by (rewrite map_length; auto).
    apply (map_nth (fun x => a * x + b)). }
  rewrite !Hn by auto. split; intros H; nra.
Qed.
Lemma quantile_units : forall srt p x w, compares srt ->
    weighted_quantile srt p (map (Rmult K) x) w = rmap (Rmult K) (weighted_quantile srt p x w).
Proof.
  intros srt p x w Hs. unfold weighted_quantile.
  destruct (assertb (if Rlt_dec 0 p then if Rlt_dec p 1 then true else false else false)); auto.
  cbn [rbind]. rewrite map_length. destruct (assertb (length x =? length w)%nat); auto. cbn [rbind rmap].
  rewrite <- (map_ext (fun y => K * y + 0) (Rmult K)) by (intros; ring).
  rewrite srt_affine by (auto; apply K_pos).
  rewrite (map_ext (fun y => K * y + 0) (Rmult K)) by (intros; ring).
  rewrite take_units, interp_units. auto.
Qed.

Lemma convert_K : forall e v, unit_factor c k e = K -> unit_shift c e = 0 ->
    convert c k e (Some v) = Some (K * v).
Proof. intros e v H1 H2. unfold convert. cbn [option_map]. rewrite H1, H2. f_equal. ring. Qed.
Lemma estimate_units : forall srt e r logw, compares srt -> logw <> [] ->
    estimate srt e (in_units c k r) (Some (sh logw)) None =
    rmap (convert c k e) (estimate srt e r (Some logw) None).
Proof.
  intros srt e r logw Hs Hl. destruct e; cbn [estimate].
  - unfold count_samples, in_units, convert. cbn [run_by logl rmap option_map unit_factor unit_shift].
    rewrite map_length. f_equal. f_equal. ring.
  - unfold logz, convert. cbn [logw_of rbind rmap option_map unit_factor unit_shift].
    rewrite lse_shift by auto. f_equal. f_equal. ring.
  - unfold evidence, convert. cbn [logw_of rbind rmap option_map unit_factor unit_shift].
    rewrite lse_shift by auto. rewrite exp_plus. f_equal. f_equal. ring.
  - unfold r_mean. cbn [logw_of rbind rmap]. rewrite convert_K by auto. rewrite rel_shift.
    unfold in_units. cbn [run_by theta]. rewrite radii_units, wmean_units. auto.
  - unfold param_mean. cbn [logw_of rbind rmap]. unfold in_units. cbn [run_by theta].
    rewrite column_units, rel_shift. destruct (column (theta r) k0) as [x|e]; cbn [rmap].
    + rewrite convert_K by auto. rewrite wmean_units. auto.
    + destruct e; auto. destruct handle; auto.
  - unfold param_squared_mean. cbn [logw_of rbind]. unfold in_units. cbn [run_by theta].
    rewrite column_units, rel_shift. destruct (column (theta r) k0) as [x|e]; auto. cbn [rbind rmap].
    unfold convert. cbn [option_map unit_factor unit_shift]. f_equal. f_equal.
    rewrite map_map, !map2_map_r.
    rewrite (map2_ext _ _ _ _ (fun x y => K ^ 2 * (x * y ^ 2))) by (intros; ring).
    rewrite rsum_map2_scale. ring.
  - unfold param_cred. cbn [logw_of rbind]. unfold in_units. cbn [run_by theta].
    rewrite column_units, rel_shift. destruct (column (theta r) k0) as [x|e]; auto. cbn [rbind rmap].
    rewrite quantile_units by auto. destruct (weighted_quantile srt p x (rel logw)); auto.
    cbn [rbind rmap]. rewrite convert_K by auto. auto.
  - unfold r_cred. cbn [logw_of rbind]. rewrite rel_shift. unfold in_units. cbn [run_by theta].
    rewrite radii_units, quantile_units by auto.
    destruct (weighted_quantile srt p (radii (theta r)) (rel logw)); auto.
    cbn [rbind rmap]. rewrite convert_K by auto. auto.
Qed.
Lemma estimators_units : forall srt r l sim, compares srt -> draws_ok sim (length (nlive_array r)) ->
    run_estimators srt (in_units c k r) l sim = rmap (map2 (convert c k) l) (run_estimators srt r l sim).
Proof.
  intros srt r l sim Hs Hd. unfold run_estimators. rewrite logw_units.
  destruct (get_logw r sim) as [logw|e] eqn:Hw; auto. cbn [rbind rmap].
  pose proof (logw_nonempty _ _ _ Hw Hd) as Hne. clear Hw Hd.
  induction l as [|e t IH]; auto. cbn [mapM]. rewrite estimate_units by auto.
  destruct (estimate srt e r (Some logw) None) as [v|x]; auto. cbn [rbind rmap]. rewrite IH.
  destruct (mapM (fun e => estimate srt e r (Some logw) None) t); auto.
Qed.

(** ** Errors *)
Lemma in_units_affine : forall r, in_units c k r = run_by (fun x => (x + c)%Z) (map (Z.mul k)) r.
Proof. auto. Qed.
Lemma shift_increasing : increasing (fun x => (x + c)%Z).
Proof. intros x y H. lia. Qed.
Lemma shift_steady : steady (fun x => (x + c)%Z).
Proof. intros x y s. replace (x + c - (s + c))%Z with (x - s)%Z by lia. replace (y + c - (s + c))%Z with (y - s)%Z by lia. tauto. Qed.

Lemma columns_units : forall E A B (est : run -> res A) (est' : run -> res B) h r sep n seeds, env_compares E ->
    (forall r, est' (in_units c k r) = rmap h (est r)) ->
    tr (map h) (bootstrap_columns (E := E) est r sep n seeds)
       (bootstrap_columns est' (in_units c k r) sep n seeds).
Proof.
  intros E A B est est' h r sep n seeds HE He. unfold bootstrap_columns.
  apply tr_bind_id; [reflexivity|]. intros _.
  eapply tr_bind; [apply mono_threads, shift_increasing|]. intros ths.
  rewrite <- (map_id seeds) at 2. apply tr_mapM. intros b _.
  eapply tr_bind.
  - apply (mono_bootstrap _ shift_increasing (map (Z.mul k)) E r (Some ths) sep b HE shift_steady).
  - intros rr. apply tr_lift. apply He.
Qed.
Lemma rows_units : forall l cols, Forall (fun col => length col = length l) cols ->
    rows_of (length l) (map (map2 (convert c k) l) cols) =
    map2 (fun e => map (convert c k e)) l (rows_of (length l) cols).
Proof.
  intros l cols H. unfold rows_of. apply nth_ext with (d := []) (d' := []).
  - rewrite map2_length, !map_length, seq_length. lia.
  - intros j Hj. rewrite map_length, seq_length in Hj.
    rewrite (nth_indep _ [] (nth_row (map (map2 (convert c k) l) cols) 0)) by (rewrite map_length, seq_length; auto).
    rewrite map_nth, seq_nth by auto.
    rewrite (nth_map2 _ _ _ _ _ _ _ CountSamples []) by (rewrite ?map_length, ?seq_length; auto).
    rewrite (nth_indep (map _ _) [] (nth_row cols 0)) by (rewrite map_length, seq_length; auto).
    rewrite map_nth, seq_nth by auto. cbn [Nat.add].
    unfold nth_row. rewrite !map_map. apply map_ext_Forall. eapply Forall_impl; [|eauto].
    intros col Hc. cbv beta in Hc. rewrite (nth_map2 _ _ _ _ _ _ _ CountSamples None) by lia. auto.
Qed.
Section Affine.
Variables a b : R.
Hypothesis Ha : 0 < a.
Notation aff := (option_map (fun x => a * x + b)).
Lemma all_finite_aff : forall l, all_finite (map aff l) = option_map (map (fun x => a * x + b)) (all_finite l).
Proof.
  induction l as [|[x|] t IH]; auto. cbn [map all_finite option_map]. rewrite IH. destruct (all_finite t); auto.
Qed.
Lemma finite_part_aff : forall l, finite_part (map aff l) = map (fun x => a * x + b) (finite_part l).
Proof. induction l as [|[x|] t IH]; auto. unfold finite_part in *. cbn [map flat_map option_map app]. rewrite IH. auto. Qed.
Lemma rsum_aff : forall l, rsum (map (fun x => a * x + b) l) = a * rsum l + INR (length l) * b.
Proof.
  induction l as [|x t IH]; [cbn; ring|]. cbn [map]. rewrite !rsum_cons, IH. cbn [length]. rewrite S_INR. ring.
Qed.
Lemma INR_pos : forall (l : list R), l <> [] -> 0 < INR (length l).
Proof. intros l H. apply lt_0_INR. destruct l; [congruence|simpl; lia]. Qed.
Lemma mean_aff : forall l, mean_of (map (fun x => a * x + b) l) = aff (mean_of l).
Proof.
  intros [|x t]; auto. unfold mean_of at 2. cbn [option_map]. unfold mean_of. cbn [map].
  change (a * x + b :: map (fun x => a * x + b) t) with (map (fun x => a * x + b) (x :: t)).
  f_equal. rewrite rsum_aff, map_length. pose proof (INR_pos (x :: t) ltac:(congruence)). field. lra.
Qed.
Lemma std_aff : forall l, std_of (map (fun x => a * x + b) l) = option_map (Rmult a) (std_of l).
Proof.
  intros l. unfold std_of. rewrite map_length. destruct (length l <=? 1)%nat eqn:Hn; auto.
  apply Nat.leb_gt in Hn. cbn [option_map]. f_equal. rewrite map_map, rsum_aff.
  assert (Hp : 0 < INR (length l) - 1).
  { apply (lt_INR 1) in Hn. change (INR 1) with 1 in Hn. lra. }
  rewrite (rsum_ext_in _ _ (fun x => a ^ 2 * (x - rsum l / INR (length l)) ^ 2)).
  - rewrite rsum_scale.
    assert (Hs : 0 <= rsum (map (fun x => (x - rsum l / INR (length l)) ^ 2) l)).
    { apply rsum_nonneg. intros y Hy. apply in_map_iff in Hy as (z & <- & _). apply pow2_ge_0. }
    unfold Rdiv at 1. rewrite Rmult_assoc.
    rewrite sqrt_mult; [|apply pow2_ge_0|apply Rmult_le_pos; [auto|left; apply Rinv_0_lt_compat; auto]].
    rewrite sqrt_pow2 by lra. auto.
  - intros x _. field. lra.
Qed.
Lemma np_std_aff : forall l, np_std (map aff l) = option_map (Rmult a) (np_std l).
Proof. intros. unfold np_std. rewrite all_finite_aff. destruct (all_finite l); auto. apply std_aff. Qed.
Lemma np_mean_aff : forall l, np_mean (map aff l) = aff (np_mean l).
Proof. intros. unfold np_mean. rewrite all_finite_aff. destruct (all_finite l); auto. apply mean_aff. Qed.
Lemma flip_aff : forall l, flip_row (map aff l) = map aff (flip_row l).
Proof.
  intros l. unfold flip_row. rewrite np_mean_aff, !map_map. apply map_ext. intros [x|];
  destruct (np_mean l) as [m|]; auto. cbn. f_equal. ring.
Qed.
Lemma finterp_go_aff : forall t x x0 f0, finterp_go x x0 (aff f0) (map (fun q => (fst q, aff (snd q))) t) =
    aff (finterp_go x x0 f0 t).
Proof.
  induction t as [|[x1 f1] t IH]; intros; auto. cbn [map finterp_go fst snd].
  destruct (Rlt_dec x x1); [|apply IH]. destruct (Req_EM_T x0 x); auto.
  destruct f1 as [f1|], f0 as [f0|]; cbn; try reflexivity;
  destruct (Req_EM_T (x1 - x0) 0); cbn; auto. f_equal. unfold Rdiv. ring.
Qed.
Lemma finterp_aff : forall x xs fs, finterp x xs (map aff fs) = rmap aff (finterp x xs fs).
Proof.
  intros. unfold finterp. rewrite mono_combine. destruct (combine xs fs) as [|[x0 f0] t]; auto.
  cbn [map fst snd rmap]. destruct (Rlt_dec x x0); auto. f_equal. apply finterp_go_aff.
Qed.
Lemma np_sort_aff : forall srt l, sorts srt -> compares srt -> np_sort srt (map aff l) = map aff (np_sort srt l).
Proof.
  intros srt l Hs Hc. unfold np_sort. rewrite finite_part_aff, srt_affine, !map_length by auto.
  rewrite map_app, !map_map. f_equal.
  - rewrite (mono_take R (fun x => a * x + b) 0 0).
    + rewrite map_map. auto.
    + apply Forall_forall. intros i Hi. apply (Permutation_in _ (proj1 Hs _)) in Hi. apply in_seq in Hi. lia.
  - generalize (length l - length (finite_part l))%nat. induction n; simpl; auto. rewrite <- IHn. auto.
Qed.
End Affine.

Lemma factor_pos : forall e, 0 < unit_factor c k e.
Proof. pose proof K_pos. intros []; cbn; try lra; try apply exp_pos; nra. Qed.
Lemma convert_row : forall e row, map (convert c k e) row =
    map (option_map (fun x => unit_factor c k e * x + unit_shift c e)) row.
Proof. auto. Qed.
Lemma estimators_length : forall srt r l sim vals, run_estimators srt r l sim = Ok vals -> length vals = length l.
Proof.
  intros srt r l sim vals H. unfold run_estimators in H. destruct (get_logw r sim) as [logw|e]; [|discriminate].
  cbn [rbind] in H. revert vals H. induction l as [|e t IH]; intros vals H; cbn [mapM] in H.
  - injection H as <-. auto.
  - destruct (estimate srt e r (Some logw) None); [|discriminate]. cbn [rbind] in H.
    destruct (mapM (fun e => estimate srt e r (Some logw) None) t) as [vs|]; [|discriminate].
    injection H as <-. cbn [length]. rewrite (IH vs) by auto. auto.
Qed.
Lemma wmapM_Forall : forall E A B (P : B -> Prop) (m : A -> W E B) l w bs w',
    (forall a w b w', m a w = (Ok b, w') -> P b) -> wmapM m l w = (Ok bs, w') -> Forall P bs.
Proof.
  induction l as [|a t IH]; intros w bs w' H Hm; cbn [wmapM] in Hm; winv; constructor; eauto.
Qed.
Lemma map2_map : forall A B B' D (f : A -> B' -> D) (g : B -> B') a l, map2 f a (map g l) = map2 (fun x y => f x (g y)) a l.
Proof. intros. apply map2_map_r. Qed.
Lemma map_rows : forall (h h' : list fl -> list fl) l rows,
    (forall e row, h (map (convert c k e) row) = map (convert c k e) (h' row)) ->
    map h (map2 (fun e => map (convert c k e)) l rows) = map2 (fun e => map (convert c k e)) l (map h' rows).
Proof.
  intros h h' l rows H. rewrite map_map2, map2_map_r. apply map2_ext. intros. apply H.
Qed.
Lemma values_units : forall E srt r l sep flip n seeds, env_compares E -> compares srt ->
    tr (map2 (fun e => map (convert c k e)) l) (run_bootstrap_values (E := E) srt r l sep flip n seeds)
       (run_bootstrap_values srt (in_units c k r) l sep flip n seeds).
Proof.
  intros E srt r l sep flip n seeds HE Hs w. unfold run_bootstrap_values, wbind.
  rewrite (columns_units E _ _ (fun rr => run_estimators srt rr l None) (fun rr => run_estimators srt rr l None)
             (map2 (convert c k) l) r sep n seeds HE)
    by (intros; apply estimators_units; simpl; auto).
  destruct (bootstrap_columns (fun rr => run_estimators srt rr l None) r sep n seeds w) as [[cols|e] w1] eqn:Hb; auto.
  cbn [fst snd rmap]. unfold wret. cbn [fst snd rmap]. f_equal. f_equal.
  rewrite rows_units.
  - destruct flip; auto. apply map_rows. intros e row. rewrite !convert_row.
    apply flip_aff.
  - unfold bootstrap_columns in Hb. winv.
    eapply wmapM_Forall; [|eassumption]. cbv beta. intros b w2 col w3 Hx. winv. eapply estimators_length; eauto.
Qed.
Lemma std_units : forall E srt r l sep flip n seeds, env_compares E -> compares srt ->
    tr (map2 (convert_error c k) l) (run_std_bootstrap (E := E) srt r l sep flip n seeds)
       (run_std_bootstrap srt (in_units c k r) l sep flip n seeds).
Proof.
  intros E srt r l sep flip n seeds HE Hs. unfold run_std_bootstrap.
  eapply tr_bind; [apply values_units; auto|]. intros rows w. unfold wret. cbn [fst snd rmap]. f_equal. f_equal.
  rewrite map_map2, map2_map_r. apply map2_ext. intros e row. rewrite convert_row.
  apply np_std_aff. apply factor_pos.
Qed.
Lemma ci_units : forall E srt r l cred sep flip n seeds, env_compares E -> sorts srt -> compares srt ->
    tr (map2 (convert c k) l) (run_ci_bootstrap (E := E) srt r l cred sep flip n seeds)
       (run_ci_bootstrap srt (in_units c k r) l cred sep flip n seeds).
Proof.
  intros E srt r l cred sep flip n seeds HE Hp Hs. unfold run_ci_bootstrap.
  eapply tr_bind; [apply values_units; auto|]. intros rows.
  apply tr_lift_bind with (g := map2 (convert c k) l).
  { apply estimators_units; simpl; auto. }
  intros expected Hx. apply estimators_length in Hx. apply tr_lift. revert expected rows Hx.
  induction l as [|e t IH]; intros [|v expected] [|row rows] Hx; try discriminate; auto.
  change (map2 (convert c k) (e :: t) (v :: expected)) with (convert c k e v :: map2 (convert c k) t expected).
  change (map2 (fun e => map (convert c k e)) (e :: t) (row :: rows))
    with (map (convert c k e) row :: map2 (fun e => map (convert c k e)) t rows).
  cbn [combine mapM]. rewrite convert_row, np_sort_aff, finterp_aff by (auto; apply factor_pos).
  destruct (finterp (1 - cred) (cdf n) (np_sort srt row)) as [q|x]; auto. cbn [rbind rmap].
  rewrite IH by (simpl in Hx; lia).
  destruct (mapM _ (combine expected rows)) as [vs|x]; auto. cbn [rbind rmap]. f_equal.
  change (map2 (convert c k) (e :: t) (fsub (fmul v (Some 2)) q :: vs))
    with (convert c k e (fsub (fmul v (Some 2)) q) :: map2 (convert c k) t vs).
  f_equal. unfold convert. destruct v as [v|], q as [q|]; cbn; auto. f_equal. ring.
Qed.
Lemma simulate_units : forall E (U : uniforms E) srt r l n, compares srt ->
    (forall m s, draws_ok (Some (fst (U m s))) m) ->
    tr (map2 (convert_error c k) l) (run_std_simulate U srt r l n)
       (run_std_simulate U srt (in_units c k r) l n).
Proof.
  intros E U srt r l n Hs HU. destruct n as [n|]; [|apply tr_raise]. unfold run_std_simulate.
  change (nlive_array (in_units c k r)) with (nlive_array r).
  assert (Hm : tr (map (map2 (convert c k) l))
            (wmapM (fun _ => let* _ := wlift (get_logx (nlive_array r) None) in
                     let* us := random U (length (nlive_array r)) in
                     wlift (run_estimators srt r l (Some us))) (seq 0 n))
            (wmapM (fun _ => let* _ := wlift (get_logx (nlive_array r) None) in
                     let* us := random U (length (nlive_array r)) in
                     wlift (run_estimators srt (in_units c k r) l (Some us))) (seq 0 n))).
  { rewrite <- (map_id (seq 0 n)) at 2. apply tr_mapM. intros _ _. apply tr_bind_id; [reflexivity|]. intros _ w1.
    unfold wbind, random. destruct (U (length (nlive_array r)) (w_rng w1)) as [us s] eqn:Hu.
    unfold wlift. cbn [fst snd]. rewrite estimators_units; auto.
    pose proof (HU (length (nlive_array r)) (w_rng w1)) as H. rewrite Hu in H. auto. }
  intros w. unfold wbind at 1 4 7. rewrite Hm.
  destruct (wmapM (fun _ => let* _ := wlift (get_logx (nlive_array r) None) in
                     let* us := random U (length (nlive_array r)) in
                     wlift (run_estimators srt r l (Some us))) (seq 0 n) w) as [[cols|e] w1] eqn:Hc; auto.
  cbn [fst snd rmap]. unfold wret. cbn [fst snd rmap]. f_equal. f_equal. rewrite rows_units.
  - rewrite map_map2, map2_map_r. apply map2_ext. intros e row. rewrite convert_row.
    apply np_std_aff. apply factor_pos.
  - eapply wmapM_Forall; [|eassumption]. cbv beta. intros b w2 col w3 Hx. winv. eapply estimators_length; eauto.
Qed.
End Units.
