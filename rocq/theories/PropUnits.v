(** C98: units of the likelihood and of the parameters. *)
From Coq Require Import Reals Lra.
From Verif Require Import Base ModelRun ModelReal ModelBoot ModelStats ModelMono ModelUnits SpecReal
     ProofMono ProofReal ProofUnits Envs PropEstimators PropMono.
Local Open Scope R_scope.

(** Log-weights are shifted by the logarithm of the factor; relative weights stay
    what they are. *)
Theorem C98_weights : forall c k r sim,
    get_logw (in_units c k r) sim =
      match get_logw r sim with
      | Ok logw => Ok (map (fun x => x + fval c) logw)
      | Raise e => Raise e
      end /\
    get_w_rel (in_units c k r) sim = get_w_rel r sim.
Proof.
  intros c k r sim. split; [apply logw_units|]. unfold get_w_rel. rewrite logw_units.
  destruct (get_logw r sim) as [logw|e]; auto. cbn [rmap rbind]. rewrite rel_shift. auto.
Qed.

(** Estimators: the evidence is multiplied by the factor of the likelihoods, its
    logarithm shifted; means, radii and quantiles are multiplied by the factor of
    the parameters, the mean square by its square. *)
Theorem C98_estimates : forall c k srt r l sim, (0 < k)%Z -> compares srt ->
    draws_ok sim (length (nlive_array r)) ->
    run_estimators srt (in_units c k r) l sim =
      match run_estimators srt r l sim with
      | Ok vals => Ok (map2 (convert c k) l vals)
      | Raise e => Raise e
      end.
Proof. intros. apply estimators_units; auto. Qed.

(** The same of each bootstrap value and credible interval, with the same random
    numbers; and errors have no shift. *)
Theorem C98_bootstrap : forall c k E srt r l sep flip n seeds (w : world E),
    (0 < k)%Z -> env_compares E -> compares srt ->
    run_bootstrap_values srt (in_units c k r) l sep flip n seeds w =
      result_by (map2 (fun e => map (convert c k e)) l)
                (run_bootstrap_values srt r l sep flip n seeds w).
Proof. intros c k E srt r l sep flip n seeds w Hk HE Hs. apply values_units; auto. Qed.

Theorem C98_std : forall c k E srt r l sep flip n seeds (w : world E),
    (0 < k)%Z -> env_compares E -> compares srt ->
    run_std_bootstrap srt (in_units c k r) l sep flip n seeds w =
      result_by (map2 (convert_error c k) l) (run_std_bootstrap srt r l sep flip n seeds w).
Proof. intros c k E srt r l sep flip n seeds w Hk HE Hs. apply std_units; auto. Qed.

Theorem C98_ci : forall c k E srt r l cred sep flip n seeds (w : world E),
    (0 < k)%Z -> env_compares E -> sorts srt -> compares srt ->
    run_ci_bootstrap srt (in_units c k r) l cred sep flip n seeds w =
      result_by (map2 (convert c k) l) (run_ci_bootstrap srt r l cred sep flip n seeds w).
Proof. intros c k E srt r l cred sep flip n seeds w Hk HE Hp Hs. apply ci_units; auto. Qed.

Theorem C98_simulate : forall c k E (U : uniforms E) srt r l n (w : world E),
    (0 < k)%Z -> compares srt -> (forall m s, draws_ok (Some (fst (U m s))) m) ->
    run_std_simulate U srt (in_units c k r) l n w =
      result_by (map2 (convert_error c k) l) (run_std_simulate U srt r l n w).
Proof. intros c k E U srt r l n w Hk Hs HU. apply simulate_units; auto. Qed.

(** In particular the error of the log-evidence does not depend on the units. *)
Theorem C98_logz_error : forall c k E srt r sep flip n seeds (w : world E),
    (0 < k)%Z -> env_compares E -> compares srt ->
    run_std_bootstrap srt (in_units c k r) [Logz] sep flip n seeds w =
    run_std_bootstrap srt r [Logz] sep flip n seeds w.
Proof.
  intros c k E srt r sep flip n seeds w Hk HE Hs. rewrite C98_std by auto. unfold result_by.
  unfold run_std_bootstrap, run_bootstrap_values, wbind.
  destruct (bootstrap_columns (fun rr => run_estimators srt rr [Logz] None) r sep n seeds w) as [[cols|e] w1]; auto.
  unfold wret. cbn [fst snd]. f_equal. f_equal.
  assert (Hid : forall v, convert_error c k Logz v = v).
  { intros [v|]; auto. cbn. f_equal. ring. }
  destruct flip; cbn [rows_of length seq map]; unfold map2; cbn [combine map fst snd]; rewrite Hid; auto.
Qed.

Print Assumptions C98_weights.
Print Assumptions C98_estimates.
Print Assumptions C98_bootstrap.
Print Assumptions C98_std.
Print Assumptions C98_ci.
Print Assumptions C98_simulate.
Print Assumptions C98_logz_error.

(** ** Examples *)

(** The hypotheses are met. *)
Example C98_hypotheses : env_compares (script_env []) /\ sorts r_isort /\ compares r_isort /\
    draws_ok None 4 /\ (0 < 2)%Z.
Proof.
  split; [apply script_compares|]. destruct r_isort_sorts as [H1 H2]. repeat split; auto; try apply H1; simpl; auto.
Qed.

(** What becomes of the estimators of a run, in units with three times the
    parameters. *)
Example C98_runs : exists z m q,
    run_estimators r_isort mono_run [CountSamples; Logz; ParamMean 0 false; ParamSquaredMean 0] None =
      Ok [Some 4; Some z; Some m; Some q] /\
    run_estimators r_isort (in_units 7 3 mono_run) [CountSamples; Logz; ParamMean 0 false; ParamSquaredMean 0] None =
      Ok [Some 4; Some (z + fval 7); Some (3 * m); Some (9 * q)].
Proof.
  destruct (get_logw_run mono_run None) as [logw Hw]; [cbn; congruence| |reflexivity|cbn; auto|].
  { cbn. intros n Hn. intuition lia. }
  assert (Hv : exists z m q, run_estimators r_isort mono_run [CountSamples; Logz; ParamMean 0 false; ParamSquaredMean 0] None =
      Ok [Some 4; Some z; Some m; Some q]).
  { unfold run_estimators. rewrite Hw. cbn [rbind mapM estimate].
    unfold count_samples, logz, param_mean, param_squared_mean. cbn [logw_of rbind].
    change (column (theta mono_run) 0) with (Ok (map fval [1; 2; 3; 4]%Z)). cbn [rbind].
    do 3 eexists. replace (INR (length (logl mono_run))) with 4 by (cbn; lra). reflexivity. }
  destruct Hv as (z & m & q & Hv). exists z, m, q. split; auto.
  rewrite (C98_estimates 7 3) by (try lia; try apply r_isort_sorts; simpl; auto).
  rewrite Hv. unfold map2, convert. cbn [combine map fst snd option_map unit_factor unit_shift].
  repeat (f_equal; try (f_equal; ring)).
Qed.
