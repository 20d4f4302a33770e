(** C97: the processing of runs uses only the order of the log-likelihoods, and
    not the parameters. *)
From Verif Require Import Base ModelRun ModelData ModelBoot ModelMono ProofMono Envs.

(** Replace every log-likelihood and birth contour of the samples array by an
    increasing function of it, and the parameters by any others: the same draws,
    warnings and exceptions, and the same run with these replaced. *)
Theorem C97_process : forall E f g samples da dw (w : world E),
    increasing f -> env_compares E ->
    process_samples_array (map (samp_by f g) samples) da dw w =
    result_by (run_by f g) (process_samples_array samples da dw w).
Proof. intros E f g samples da dw w Hf HE. apply (mono_process f Hf g); auto. Qed.

(** The same of splitting a run into threads, checking it, and combining runs. *)
Theorem C97_threads : forall E f g r (w : world E), increasing f ->
    get_run_threads (run_by f g r) w = result_by (map (run_by f g)) (get_run_threads r w).
Proof. intros E f g r w Hf. apply (mono_threads f Hf g). Qed.

Theorem C97_check : forall E f g r da dw (w : world E), increasing f -> env_compares E ->
    check_ns_run (run_by f g r) da dw w = check_ns_run r da dw w.
Proof. intros. apply mono_check; auto. Qed.

Theorem C97_combine : forall E f g runs da dw (w : world E), increasing f -> env_compares E ->
    combine_ns_runs (map (run_by f g) runs) da dw w =
    result_by (run_by f g) (combine_ns_runs runs da dw w).
Proof. intros E f g runs da dw w Hf HE. apply (mono_combine_runs f Hf g); auto. Qed.

(** Combining threads: so long as every contour on which a thread starts is the
    log-likelihood of a point of one of the threads. *)
Theorem C97_combine_threads : forall E f g ths ab (w : world E), increasing f -> env_compares E ->
    (forall th tmm s m, In th ths -> thread_min_max th = Some tmm -> In (Fin s, m) tmm ->
       exists th', In th' ths /\ In s (logl th')) ->
    combine_threads (map (run_by f g) ths) ab w =
    result_by (run_by f g) (combine_threads ths ab w).
Proof.
  intros E f g ths ab w Hf HE H. apply (mono_combine_threads f Hf g); auto. right. intros s Hs.
  unfold finite_starts in Hs. apply in_flat_map in Hs as ((e & m) & Hmm & Hs).
  destruct e as [|z]; [contradiction|]. destruct Hs as [Hz|[]]. cbn [fst] in Hz. subst z.
  apply in_flat_map in Hmm as (th & Hth & Hmm). unfold get_tmm in Hmm.
  destruct (thread_min_max th) as [tmm|] eqn:Ht; [|contradiction].
  destruct (H th tmm s m Hth Ht Hmm) as (th' & H1 & H2). apply in_flat_map. eauto.
Qed.

(** Bootstrap resampling leaves threads out, so that a contour may have lost its
    point; the code then takes the nearest one.  It uses distances as well, and
    a function which keeps their order is needed. *)
Theorem C97_bootstrap : forall E f g r ths sep b (w : world E),
    increasing f -> steady f -> env_compares E ->
    bootstrap_resample_run (run_by f g r) (option_map (map (run_by f g)) ths) sep b w =
    result_by (run_by f g) (bootstrap_resample_run r ths sep b w).
Proof. intros E f g r ths sep b w Hf Hs HE. apply (mono_bootstrap f Hf g); auto. Qed.

(** Shifts and rescalings are such functions. *)
Theorem C97_affine : forall a c, 0 < a -> increasing (fun x => a * x + c) /\ steady (fun x => a * x + c).
Proof.
  intros a c Ha. split.
  - intros x y H. nia.
  - intros x y s.
    replace (a * x + c - (a * s + c)) with (a * (x - s)) by ring.
    replace (a * y + c - (a * s + c)) with (a * (y - s)) by ring.
    rewrite !Z.abs_mul, (Z.abs_eq a) by lia. split; intros; nia.
Qed.

(** Bootstrap resampling with an increasing function alone: refuted.  The point
    with log-likelihood 5, on which the third thread starts, is not drawn. *)
Definition mono_run : run :=
  mkRun [0; 5; 11; 20] [[1]; [2]; [3]; [4]] [2; 2; 2; 1] (Some [0; 1; 2; 0])
        (Some [(NInf, 20); (NInf, 5); (Fin 5, 11)]) None None.
Definition mono_fun (x : Z) : Z := if x <? 5 then x else x + 100.
Lemma mono_fun_increasing : increasing mono_fun.
Proof.
  intros x y H. unfold mono_fun. destruct (Z.ltb_spec x 5), (Z.ltb_spec y 5); lia.
Qed.

(** numpy's argsort as it is used in the examples satisfies the hypothesis. *)
Lemma script_compares : forall script, env_compares (script_env script).
Proof.
  intros script f l Hf. cbn [script_env argsort]. unfold isort. rewrite map_length.
  assert (Hins : forall i js, (i < length l)%nat -> Forall (fun j => (j < length l)%nat) js ->
            ins (map f l) i js = ins l i js).
  { intros i js Hi. induction js as [|j t IH]; intros Hjs; auto. inversion Hjs; subst.
    cbn [ins]. rewrite (mono_nth f l i 0 0 Hi), (mono_nth f l j 0 0 H1), (mono_leb f Hf), IH; auto. }
  assert (Hin : Forall (fun j => (j < length l)%nat) (seq 0 (length l))).
  { apply Forall_forall. intros j Hj. apply in_seq in Hj. lia. }
  revert Hin. generalize (seq 0 (length l)). intros is. induction is as [|i t IH]; intros His; auto.
  inversion His; subst. cbn [fold_right]. rewrite IH by auto. apply Hins; auto.
  apply Forall_forall. intros j Hj.
  assert (Hp : Permutation (fold_right (ins l) [] t) t).
  { clear. induction t as [|i t IH]; simpl; auto. rewrite ins_perm. auto. }
  apply (Permutation_in _ Hp) in Hj. rewrite Forall_forall in H2. auto.
Qed.

Theorem C97_bootstrap_refuted :
  let E := script_env [] in let w := mkW (E := E) [0; 0; 2]%nat [] in
  increasing mono_fun /\ env_compares E /\
  exists r1 r2 w1 w2,
    bootstrap_resample_run mono_run None false BKeep w = (Ok r1, w1) /\
    bootstrap_resample_run (run_by mono_fun (map Z.opp) mono_run) None false BKeep w = (Ok r2, w2) /\
    logl r2 = map mono_fun (logl r1) /\ nlive_array r2 <> nlive_array r1.
Proof.
  intros E w. split; [apply mono_fun_increasing|]. split; [apply script_compares|].
  do 4 eexists. split; [vm_compute; reflexivity|]. split; [vm_compute; reflexivity|].
  split; [reflexivity|]. vm_compute. discriminate.
Qed.

Print Assumptions C97_process.
Print Assumptions C97_threads.
Print Assumptions C97_check.
Print Assumptions C97_combine.
Print Assumptions C97_combine_threads.
Print Assumptions C97_bootstrap.
Print Assumptions C97_affine.
Print Assumptions C97_bootstrap_refuted.

(** ** Examples *)

(** A samples array and the same one with other log-likelihoods. *)
Example C97_process_runs :
  let E := script_env [] in let w := mkW (E := E) [] [] in
  let s := [mkSamp [7] 5 (-9); mkSamp [8] 2 (-9); mkSamp [9] 6 2] in
  fst (process_samples_array s false false w) =
    Ok (mkRun [2; 5; 6] [[8]; [7]; [9]] [2; 2; 1] (Some [0; 1; 0])
              (Some [(NInf, 6); (NInf, 5)]) None None) /\
  fst (process_samples_array (map (samp_by mono_fun (map Z.opp)) s) false false w) =
    Ok (mkRun [2; 105; 106] [[-8]; [-7]; [-9]] [2; 2; 1] (Some [0; 1; 0])
              (Some [(NInf, 106); (NInf, 105)]) None None).
Proof. split; vm_compute; reflexivity. Qed.

(** The two resamples of the counterexample. *)
Example C97_bootstrap_witness :
  let E := script_env [] in let w := mkW (E := E) [0; 0; 2]%nat [] in
  map nlive_array (match fst (bootstrap_resample_run mono_run None false BKeep w) with
                   | Ok r => [r] | _ => [] end) = [[2; 3; 3; 2; 1]] /\
  map nlive_array (match fst (bootstrap_resample_run (run_by mono_fun (map Z.opp) mono_run) None false BKeep w) with
                   | Ok r => [r] | _ => [] end) = [[2; 2; 2; 2; 1]].
Proof. split; vm_compute; reflexivity. Qed.

(** The threads of the run itself contain every contour. *)
Example C97_threads_runs :
  let E := script_env [] in let w := mkW (E := E) [] [] in
  exists ths w', get_run_threads mono_run w = (Ok ths, w') /\ length ths = 3%nat /\
    fst (combine_threads ths true w) = Ok mono_run /\
    fst (combine_threads (map (run_by mono_fun (map Z.opp)) ths) true w) = Ok (run_by mono_fun (map Z.opp) mono_run).
Proof.
  do 2 eexists. split; [vm_compute; reflexivity|]. split; [reflexivity|].
  split; vm_compute; reflexivity.
Qed.
