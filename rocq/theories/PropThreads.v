(** C01, C02: decomposition of a run into threads. *)
From Verif Require Import Base ModelRun ModelData Envs Spec ProofThreads.

(** C01.  For every integer array the call returns labels or raises one of
    Python's exceptions: the model's fuel (one unit per point for each [while]
    loop) is never exhausted. *)
Theorem C01_threads_terminate : forall E b (w : world E),
    fst (threads_given_birth_inds b w) <> Raise OutOfFuel.
Proof. exact threads_terminate. Qed.
Print Assumptions C01_threads_terminate.

(** The bound itself: from any state in which the current point is labelled,
    the loop makes at most one iteration per point, so that allowing it any
    number of further iterations changes nothing. *)
Theorem C01_while_iterations : forall b lab cur labels k,
    length labels = length b -> (cur < length b)%nat -> nth cur labels None <> None ->
    follow (length b) b lab cur labels <> Raise OutOfFuel /\
    follow (k + length b) b lab cur labels = follow (length b) b lab cur labels.
Proof. exact while_iterations. Qed.
Print Assumptions C01_while_iterations.

(** Self-referencing and cyclic arrays; the last one ends in an assertion
    inside the [while] loop. *)
Example C01_self : forall w : world (script_env []),
    fst (threads_given_birth_inds [-1; 1; 1] w) = Ok [0; 0; 1].
Proof. intros. vm_compute. reflexivity. Qed.
Example C01_cycle : forall w : world (script_env []),
    fst (threads_given_birth_inds [-1; 2; 1] w) = Ok [0; 0; 0].
Proof. intros. vm_compute. reflexivity. Qed.
Example C01_loop : forall w : world (script_env []),
    fst (threads_given_birth_inds [1; 0; 1] w) = Raise AssertionError.
Proof. intros. vm_compute. reflexivity. Qed.

(** C02.  With valid birth indexes the call succeeds, leaves the random state
    and the warnings alone, and its result is the canonical decomposition. *)
Theorem C02_threads_canonical : forall b, valid_births b ->
    forall E (w : world E), b <> [] ->
    exists labs, threads_given_birth_inds b w = (Ok labs, w) /\ canonical_threads b labs.
Proof. exact threads_canonical. Qed.
Print Assumptions C02_threads_canonical.

(** The canonical decomposition determines the labels. *)
Theorem C02_canonical_unique : forall b labs labs', valid_births b ->
    canonical_threads b labs -> canonical_threads b labs' -> labs = labs'.
Proof. exact canonical_unique. Qed.
Print Assumptions C02_canonical_unique.

Definition births_example : list Z := [-1; -1; 0; 0; 1; 2; -1; 3].
Example C02_example_valid : valid_births births_example /\ births_example <> [].
Proof.
  split; [|discriminate]. intros i Hi. simpl in Hi.
  do 8 (destruct i as [|i]; [simpl; lia|]). lia.
Qed.
Example C02_example : forall w : world (script_env []),
    threads_given_birth_inds births_example w = (Ok [0; 1; 0; 3; 1; 0; 2; 3], w).
Proof. intros [r k]. vm_compute. reflexivity. Qed.
