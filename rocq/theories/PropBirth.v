(** C05 - C09: birth contours, random allocation and the random state. *)
From Verif Require Import Base ModelRun ModelData Envs ProofBase ProofMonad Spec ProofBirth ProofDet.

(** C05 *)
Theorem C05_births_on_contours : forall E births logls da dw (w : world E) b w',
    length births = length logls ->
    birth_inds_given_contours births logls da dw w = (Ok b, w') ->
    births_on_contours births logls b.
Proof. exact births_returned. Qed.
Print Assumptions C05_births_on_contours.

Definition ties_logls : list Z := [1; 2; 2; 2; 4; 5].
Definition ties_births : list Z := [0; 0; 1; 2; 2; 2].
Example C05_example : forall w : world (script_env [0; 1; 0]%nat),
    birth_inds_given_contours ties_births ties_logls false true w =
    (Ok [-1; -1; 0; 1; 3; 2], mkW (w_rng w) (WDupLogl :: w_warn w)).
Proof. intros [r k]. vm_compute. reflexivity. Qed.

(** C06 *)
Theorem C06_ties_resolved : forall E births logls da dw (w : world E) b w',
    length births = length logls ->
    birth_inds_given_contours births logls da dw w = (Ok b, w') ->
    (forall c, c <> nth 0 births 0 -> (1 < occurs c logls)%nat ->
               (occurs c births <= occurs c logls)%nat) ->
    forall i, (i < length births)%nat ->
      (nth i b 0 < Z.of_nat i \/
       (nth i births 0 = nth i logls 0 /\ nth i b 0 = Z.of_nat i /\
        occurs (nth i logls 0%Z) logls = 1%nat)) /\
      (forall j, (j < length births)%nat -> i <> j -> nth i births 0 = nth j births 0 ->
         nth i births 0 <> nth 0 births 0 -> (1 < occurs (nth i births 0%Z) logls)%nat ->
         nth i b 0 <> nth j b 0).
Proof. exact births_before_deaths. Qed.
Print Assumptions C06_ties_resolved.

Example C06_example : forall c, c <> nth 0 ties_births 0 -> (1 < occurs c ties_logls)%nat ->
    (occurs c ties_births <= occurs c ties_logls)%nat.
Proof.
  intros c _ H. destruct (Z.eq_dec c 2) as [->|Hn]; [vm_compute; lia|].
  exfalso. revert H. unfold occurs, ties_logls. cbn [count_occ].
  repeat match goal with |- context [Z.eq_dec ?x c] => destruct (Z.eq_dec x c) end; lia.
Qed.

(** Both side conditions are needed.  A point born on its own unique contour is
    its own parent, and with more births than deaths on a tied contour a point
    may be allocated a parent which dies after it (here point 1, parent 1). *)
Example C06_own_contour : forall w : world (script_env []),
    fst (birth_inds_given_contours [0; 2; 0] [1; 2; 3] false false w) = Ok [-1; 1; -1].
Proof. intros. vm_compute. reflexivity. Qed.
Example C06_more_births : exists script, forall w : world (script_env script),
    fst (birth_inds_given_contours [-1; 1; 1; 1; 3] [1; 1; 2; 3; 5] false false w)
    = Ok [-1; 1; 0; 0; 3].
Proof. exists [0; 0; 0; 1]%nat. intros. vm_compute. reflexivity. Qed.

(** C07 *)
Theorem C07_sample_less_than_condition : forall E choices cond (w : world E),
    match sample_less_than_condition choices cond w with
    | (Ok out, w') => allocation choices cond out /\ w_warn w' = w_warn w
    | (Raise e, _) => e = ValueError /\
                      (StronglySorted Z.le cond -> ~ exists out, allocation choices cond out)
    end.
Proof. exact slt_spec. Qed.
Print Assumptions C07_sample_less_than_condition.

Example C07_example : forall w : world (script_env []), w_rng w = [] ->
    fst (sample_less_than_condition [3; 1; 2] [2; 3; 5] w) = Ok [1; 2; 3].
Proof. intros [r k] H. simpl in H. subst. vm_compute. reflexivity. Qed.
Example C07_example_raise : forall w : world (script_env []),
    fst (sample_less_than_condition [3; 2] [2; 3; 5] w) = Raise ValueError.
Proof. intros. vm_compute. reflexivity. Qed.

(** C08: on success the random state is as before; neither the outcome nor the
    warnings emitted depend on it. *)
Definition leaves_random_state {E A} (m : W E A) : Prop :=
  (forall w a w', m w = (Ok a, w') -> w_rng w' = w_rng w) /\
  (forall w1 w2, fst (m w1) = fst (m w2)) /\
  (exists emitted, forall w, w_warn (snd (m w)) = emitted ++ w_warn w).

Theorem C08_birth_inds : forall E births logls da dw,
    leaves_random_state (E := E) (birth_inds_given_contours births logls da dw).
Proof. intros. exact (det_leaves _ _ _ (det_birth E births logls da dw)). Qed.
Print Assumptions C08_birth_inds.
Theorem C08_threads : forall E b, leaves_random_state (E := E) (threads_given_birth_inds b).
Proof. intros. exact (det_leaves _ _ _ (det_threads E b)). Qed.
Print Assumptions C08_threads.
Theorem C08_process_samples_array : forall E samples da dw,
    leaves_random_state (E := E) (process_samples_array samples da dw).
Proof. intros. exact (det_leaves _ _ _ (det_process E samples da dw)). Qed.
Print Assumptions C08_process_samples_array.
Theorem C08_process_multinest_run : forall E root dead live da dw,
    leaves_random_state (E := E) (process_multinest_run root dead live da dw).
Proof. intros. exact (det_leaves _ _ _ (det_multinest E root dead live da dw)). Qed.
Print Assumptions C08_process_multinest_run.
Theorem C08_process_polychord_run : forall E root rows ps st da dw,
    leaves_random_state (E := E) (process_polychord_run root rows ps st da dw).
Proof. intros. exact (det_leaves _ _ _ (det_polychord E root rows ps st da dw)). Qed.
Print Assumptions C08_process_polychord_run.

(** The seeded generator really is used: with another generator the same call
    gives another allocation (compare [C05_example]). *)
Example C08_example : forall w : world (script_env [0; 0; 0]%nat),
    fst (birth_inds_given_contours ties_births ties_logls false true w) = Ok [-1; -1; 0; 1; 2; 3].
Proof. intros [r k]. vm_compute. reflexivity. Qed.

(** C09: the state after an exception.  If the check of the logls fails, it is as
    it was.  In all other cases the generator is left in a state which was
    reached from seed 0 by drawing numbers, so it does not depend on the state
    before. *)
Theorem C09_birth_inds : forall E births logls da dw,
    let m := birth_inds_given_contours (E := E) births logls da dw in
    (~ StronglySorted Z.le logls \/ (da = true /\ ~ NoDup logls) -> forall w, m w = (Raise AssertionError, w)) /\
    (StronglySorted Z.le logls -> (da = true -> NoDup logls) -> forall w e w', m w = (Raise e, w') ->
       reaches (r_seed E 0) (w_rng w') /\
       forall w2, exists w2', m w2 = (Raise e, w2') /\ w_rng w2' = w_rng w').
Proof.
  intros E births logls da dw. cbn zeta.
  pose proof (fun w => check_logls_spec E logls da dw w) as Hc.
  assert (Hr : forall (w : world E) e w1, check_ns_run_logls logls da dw w = (Raise e, w1) -> e = AssertionError /\ w1 = w).
  { intros w e w1. unfold check_ns_run_logls, wbind, wassert, wlift, assertb.
    destruct (list_eqb _ _); [|inversion 1; auto].
    destruct da; [destruct (_ =? 0)%nat; inversion 1; auto|].
    destruct dw; [destruct (_ =? 0)%nat; inversion 1; auto|inversion 1]. }
  split.
  - intros H w. specialize (Hc w). unfold birth_inds_given_contours, wbind at 1.
    destruct (check_ns_run_logls logls da dw w) as [[u|e] w1] eqn:He; [tauto|].
    destruct (Hr _ _ _ He) as [-> ->]. auto.
  - intros Hs Hd.
    assert (Hok : forall w : world E, exists w1, check_ns_run_logls logls da dw w = (Ok tt, w1)).
    { intros w. specialize (Hc w). destruct (check_ns_run_logls logls da dw w) as [[[]|e] w1]; [eauto|tauto]. }
    destruct (uniform_birth_loop E births logls (r_seed E 0)) as (r & s' & ds & Hl).
    assert (Hrun : forall w : world E, exists ws, birth_inds_given_contours births logls da dw w =
              match r with Ok b => (Ok b, mkW (w_rng w) ws) | Raise e => (Raise e, mkW s' ws) end).
    { intros w. destruct (Hok w) as (w1 & Hw1). specialize (Hc w). rewrite Hw1 in Hc.
      unfold birth_inds_given_contours. change (@seed E 0) with (@set_state E (r_seed E 0)).
      unfold wbind, get_state, set_state. rewrite Hw1. cbn [w_rng w_warn].
      rewrite Hl. destruct r; eexists; [|reflexivity]. cbn [w_warn]. destruct Hc as (_ & -> & _). reflexivity. }
    intros w e w' H. destruct (Hrun w) as (ws & Hw). rewrite H in Hw. destruct r as [b|e']; [discriminate|].
    inversion Hw; subst. split.
    + pose proof (draws_birth_loop E births logls (mkW (r_seed E 0) [])) as Hd2. rewrite Hl in Hd2. auto.
    + intros w2. destruct (Hrun w2) as (ws2 & Hw2). eauto.
Qed.
Print Assumptions C09_birth_inds.
(** The whole processing of a samples array. *)
Theorem C09_process_samples_array : forall E samples da dw (w : world E) e w',
    process_samples_array samples da dw w = (Raise e, w') ->
    w_rng w' = w_rng w \/
    forall w2, exists w2', process_samples_array samples da dw w2 = (Raise e, w2') /\ w_rng w2' = w_rng w'.
Proof. intros E samples da dw. apply det_error, det_process. Qed.
Print Assumptions C09_process_samples_array.
(** So the state is not always as before. *)
Theorem C09_failed_call_keeps_state_refuted :
    exists E births logls (w : world E) e w',
      length births = length logls /\
      birth_inds_given_contours births logls false false w = (Raise e, w') /\
      w_rng w' <> w_rng w.
Proof.
  exists (script_env []), [0; 5], [1; 6], (@mkW (script_env []) [7%nat] []), AssertionError, (@mkW (script_env []) [] []).
  split; [|split]; [reflexivity | vm_compute; reflexivity | simpl; discriminate].
Qed.
Print Assumptions C09_failed_call_keeps_state_refuted.
