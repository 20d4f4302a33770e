(** C60: check_ns_run accepts exactly the documented format. *)
From Verif Require Import Base ModelRun ModelData Envs ProofBase ProofMonad Spec SpecRun ProofRun.

(** [valid_run r]: exactly the documented keys are present, and the columns are
    as documented ([Spec.valid_columns], [SpecRun.valid_run]). *)
Theorem C60_check_ns_run : forall E r da dw (w : world E),
    match check_ns_run r da dw w with
    | (Ok _, w') => valid_run r /\ (da = true -> NoDup (logl r)) /\ w_rng w' = w_rng w /\
                    (NoDup (logl r) \/ dw = false -> w' = w)
    | (Raise e, w') => e = AssertionError /\ w_rng w' = w_rng w /\
                       ~ (valid_run r /\ (da = true -> NoDup (logl r)))
    end.
Proof. exact check_ns_run_spec. Qed.
Print Assumptions C60_check_ns_run.

Lemma wlift_inv : forall E A (x : res A) (w : world E) u w', wlift x w = (Ok u, w') -> x = Ok u /\ w' = w.
Proof. intros E A x w u w' H. unfold wlift in H. injection H as H1 H2. auto. Qed.
(** The warning about repeated logls: exactly when there are some and dup_warn
    is true. *)
Theorem C60_warnings : forall E r da dw (w : world E) u w', check_ns_run r da dw w = (Ok u, w') ->
    (NoDup (logl r) \/ dw = false -> w' = w) /\
    (~ NoDup (logl r) -> dw = true -> w' = mkW (w_rng w) (WDupLogl :: w_warn w)).
Proof.
  intros E r da dw w u w' H. split.
  - pose proof (check_ns_run_spec E r da dw w) as Hs. rewrite H in Hs. tauto.
  - intros Hd Hdw. unfold check_ns_run in H.
    apply wbind_Ok in H as (u1 & w1 & H1 & H). apply wbind_Ok in H as (u2 & w2 & H2 & H).
    apply wlift_inv in H1 as [_ ->]. apply wlift_inv in H as [_ ->].
    unfold check_ns_run_logls in H2. apply wbind_Ok in H2 as (u3 & w3 & H3 & H2).
    apply wlift_inv in H3 as [_ ->].
    pose proof (unique_length_NoDup (logl r)) as Hu.
    assert (Hle : (length (unique (logl r)) <= length (logl r))%nat).
    { apply NoDup_incl_length; [apply unique_NoDup|]. intros x. apply in_unique. }
    replace (length (logl r) - length (unique (logl r)) =? 0)%nat with false in H2
      by (symmetry; apply Nat.eqb_neq; intros Heq; apply Hd, Hu; lia).
    destruct da; [discriminate|]. subst dw. inversion H2. reflexivity.
Qed.
Print Assumptions C60_warnings.

Definition run_example : run :=
  mkRun [1; 3; 5; 6] [[10]; [30]; [50]; [60]] [1; 2; 2; 1] (Some [0; 0; 1; 0])
        (Some [(NInf, 6); (Fin 1, 5)]) None None.
Example C60_example : forall w : world (script_env []),
    check_ns_run run_example true true w = (Ok tt, w).
Proof. intros [r k]. vm_compute. reflexivity. Qed.
Example C60_example_valid : valid_run run_example.
Proof.
  pose proof (C60_check_ns_run (script_env []) run_example true true (@mkW (script_env []) [] [])) as H.
  rewrite C60_example in H. tauto.
Qed.
Definition run_bad : run :=
  mkRun [1; 3; 5; 6] [[10]; [30]; [50]; [60]] [1; 2; 2; 1] (Some [0; 0; 1; 0])
        (Some [(NInf, 6); (Fin 7, 5)]) None None.
Example C60_example_invalid : ~ valid_run run_bad.
Proof.
  intros H.
  pose proof (C60_check_ns_run (script_env []) run_bad false false
                (@mkW (script_env []) [] [])) as H'.
  assert (Hr : check_ns_run run_bad false false (@mkW (script_env []) [] []) =
               (Raise AssertionError, @mkW (script_env []) [] [])) by (vm_compute; reflexivity).
  rewrite Hr in H'. destruct H' as (_ & _ & H'). apply H'. split; [exact H|discriminate].
Qed.
