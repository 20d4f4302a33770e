(** C76: decomposition into threads when some points belong to none. *)
From Verif Require Import Base ModelRun ModelData Envs Spec ProofThreads ProofThreads2.

(** C76.  The birth indexes are any integers not below -1, and -1 is one of them;
    indexes may point forwards, at the point itself, in circles or out of the
    array.  The call succeeds; only when some point belongs to no thread it warns
    (once), and the random state is as before in either case.  The points which
    belong to a thread are labelled as in C02.  A point which belongs to none is put
    into a thread with a point before it and (by birth) a point after it, if there
    is such a thread; in any case into one of the threads. *)
Theorem C76_unlabelled : forall b, In (-1) b -> (forall x, In x b -> -1 <= x) ->
    forall E (w : world E), exists labs w',
      threads_given_birth_inds b w = (Ok labs, w') /\
      ((w' = w /\ forall i, (i < length b)%nat -> has_thread b i) \/
       (w' = mkW (w_rng w) (WUnlabelled :: w_warn w) /\
        exists i, (i < length b)%nat /\ ~ has_thread b i)) /\
      length labs = length b /\
      (forall i j, (i < length b)%nat -> ~ starts_thread b i ->
         nth i b 0 = Z.of_nat j -> has_thread b j -> nth i labs 0 = nth j labs 0) /\
      (exists starts,
         (forall i, In i starts <-> starts_thread b i) /\
         StronglySorted (starts_before b) starts /\
         (forall k, (k < length starts)%nat ->
                    nth (nth k starts 0%nat) labs 0 = Z.of_nat k) /\
         (forall x, In x labs <-> 0 <= x < Z.of_nat (length starts))) /\
      (forall i x, (i < length b)%nat -> ~ has_thread b i ->
         (exists j, (j < i)%nat /\ nth j labs 0 = x) ->
         (exists k, (i < k)%nat /\ has_thread b k /\ nth k labs 0 = x) ->
         (exists j, (j < i)%nat /\ nth j labs 0 = nth i labs 0) /\
         (exists k, (i < k)%nat /\ has_thread b k /\ nth k labs 0 = nth i labs 0)).
Proof. exact threads_general. Qed.
Print Assumptions C76_unlabelled.

(** The purpose (data_processing.py:704-705): "to ensure we don't change nlive_array
    by extending a thread".  If for each point without a thread there is a thread
    with a point by birth before it and one after it, then each of these points is
    put between two points which belong by birth to the thread it is given, so no
    thread begins earlier or ends later than by births alone. *)
Theorem C76_no_thread_extended : forall b, In (-1) b -> (forall x, In x b -> -1 <= x) ->
    forall E (w w' : world E) labs, threads_given_birth_inds b w = (Ok labs, w') ->
    (forall i, (i < length b)%nat -> ~ has_thread b i ->
       exists j k, (j < i < k)%nat /\ has_thread b j /\ has_thread b k /\
                   nth j labs 0 = nth k labs 0) ->
    forall i, (i < length b)%nat -> ~ has_thread b i ->
      exists j k, (j < i < k)%nat /\ has_thread b j /\ has_thread b k /\
                  nth j labs 0 = nth i labs 0 /\ nth k labs 0 = nth i labs 0.
Proof.
  intros b Hm1 Hge E w w' labs H Hex.
  destruct (threads_general b Hm1 Hge E w) as (labs' & w'' & H1 & H2 & H3 & H4 & H5 & H6).
  rewrite H in H1. inversion H1; subst labs' w''.
  assert (Hdec : forall i, (i < length b)%nat -> has_thread b i \/ ~ has_thread b i)
    by (apply has_thread_dec; auto).
  assert (Hc : forall i, (i < length b)%nat -> ~ has_thread b i ->
     (exists j, (j < i)%nat /\ nth j labs 0 = nth i labs 0) /\
     (exists k, (i < k)%nat /\ has_thread b k /\ nth k labs 0 = nth i labs 0)).
  { intros i Hi Hn. destruct (Hex i Hi Hn) as (j & k & Hjk & Hj & Hk & He).
    apply (H6 i (nth j labs 0)); auto.
    - exists j. split; [lia|auto].
    - exists k. split; [lia|auto]. }
  induction i as [i IH] using lt_wf_ind. intros Hi Hn.
  destruct (Hc i Hi Hn) as [(j & Hj & Hje) (k & Hk & Hkt & Hke)].
  destruct (Hdec j ltac:(lia)) as [Hjt|Hjn].
  - exists j, k. split; [lia|]. auto.
  - destruct (IH j Hj ltac:(lia) Hjn) as (j2 & k2 & Hjk2 & Hj2 & _ & Hj2e & _).
    exists j2, k. split; [lia|]. repeat split; auto. congruence.
Qed.
Print Assumptions C76_no_thread_extended.

(** Two threads (points 0, 3 and 1, 5); point 2 is born on itself, point 4 on a
    point outside the array.  Any choice of 0 or 1 is allowed for both. *)
Definition births_odd : list Z := [-1; -1; 2; 0; 9; 1].
Example C76_example_hyp : In (-1) births_odd /\ (forall x, In x births_odd -> -1 <= x).
Proof. split; simpl; [auto|]. intros x Hx. intuition lia. Qed.
Example C76_example_none : ~ has_thread births_odd 2 /\ ~ has_thread births_odd 4 /\
                           has_thread births_odd 5.
Proof.
  split; [|split].
  - intros H. remember 2%nat as i eqn:Hi. induction H as [i [_ [H|[j [Hj H]]]]|i j _ _ He H IH]; subst i.
    + discriminate H.
    + destruct j as [|[|j]]; [discriminate H|discriminate H|lia].
    + apply IH. cbn in He. lia.
  - intros H. inversion H as [i Hs Ei|i j Hi Hs He H' Ei].
    + destruct Hs as [_ [Hs|[j [Hj Hs]]]]; [discriminate Hs|].
      destruct j as [|[|[|[|j]]]]; try discriminate Hs. lia.
    + cbn in He. assert (j = 9%nat) by lia. subst j.
      apply rooted_has_thread, rooted_lt in H'. cbn in H'. lia.
  - apply ht_next with (j := 1%nat).
    + cbn. lia.
    + intros [_ [H|[j [Hj H]]]]; [discriminate H|].
      destruct j as [|[|[|[|[|j]]]]]; try discriminate H. lia.
    + reflexivity.
    + apply ht_start. split; [cbn; lia|left; reflexivity].
Qed.
(** Point 2 may be put into either thread; after point 3 only thread 1 goes on, so
    point 4 must belong to it. *)
Example C76_example : forall w : world (script_env [1; 1]%nat),
    fst (threads_given_birth_inds births_odd w) = Ok [0; 1; 1; 0; 1; 1].
Proof. intros w. vm_compute. reflexivity. Qed.
Example C76_example_other : forall w : world (script_env [0; 0]%nat),
    fst (threads_given_birth_inds births_odd w) = Ok [0; 1; 0; 0; 1; 1].
Proof. intros w. vm_compute. reflexivity. Qed.
Example C76_example_warns : forall w : world (script_env [0; 0]%nat),
    snd (threads_given_birth_inds births_odd w) =
      mkW (w_rng w) (WUnlabelled :: w_warn w).
Proof. intros [r k]. vm_compute. reflexivity. Qed.
(** No thread has a point after point 1: it extends thread 0. *)
Example C76_example_last : forall w : world (script_env []),
    fst (threads_given_birth_inds [-1; 7] w) = Ok [0; 0].
Proof. intros w. vm_compute. reflexivity. Qed.
