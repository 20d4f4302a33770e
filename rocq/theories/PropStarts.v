(** C72: where combine_threads counts the starts of threads. *)
From Verif Require Import Base ModelRun Envs ProofBase ProofMonad Spec SpecRun ProofStarts.

(** Threads given to combine_threads: (run, (label, (start, end))). *)
Definition threads_given (specs : list (run * (Z * (ext * Z)))) : Prop :=
  specs <> [] /\ Forall (fun x => single_thread (fst x) (fst (snd x)) (snd (snd x))) specs.
Definition bounds_of (specs : list (run * (Z * (ext * Z)))) : list (ext * Z) := map (fun x => snd (snd x)) specs.
Definition points_of (specs : list (run * (Z * (ext * Z)))) : list Z := flat_map (fun x => logl (fst x)) specs.
(** Every thread starting above -inf starts above the lowest point. *)
Definition above_lowest (specs : list (run * (Z * (ext * Z)))) : Prop :=
  forall s, In s (start_contours (bounds_of specs)) -> exists x, In x (points_of specs) /\ x < s.

(** Each thread starting above -inf adds one live point after the sample it
    is attached to. That sample is on the contour where it starts, if there
    is one, otherwise it is nearest. The other columns are the samples of the
    threads in order, the thread columns being kept exactly when they are
    valid. The generator is left as it was. *)
Theorem C72_starts : forall E specs abp (w : world E) r w',
    threads_given specs -> above_lowest specs ->
    combine_threads (map fst specs) abp w = (Ok r, w') ->
    let mms := bounds_of specs in
    exists bs labs, w' = w /\
      Forall2 (attached (logl r)) (start_contours mms) bs /\
      (abp = true -> Forall (fun s => occurs s (logl r) = 1%nat) (start_contours mms)) /\
      length (nlive_array r) = length (logl r) /\
      (forall i, (i < length (logl r))%nat ->
         (forall j, (j < i)%nat -> nth j (logl r) 0 < nth i (logl r) 0) ->
         nth i (nlive_array r) 0 =
         Z.of_nat (length mms - length (start_contours mms))
         + Z.of_nat (length (filter (fun b => nth b (logl r) 0 <? nth i (logl r) 0) bs))
         - Z.of_nat (length (filter (fun mm => snd mm <? nth i (logl r) 0) mms))) /\
      Permutation (combine (logl r) (combine labs (theta r)))
                  (flat_map (fun x => labelled_samples (fst x) (fst (snd x))) specs) /\
      length labs = length (logl r) /\ length (theta r) = length (logl r) /\
      output r = None /\ settings r = None /\
      let valid := valid_columns (logl r) (length (theta r)) (length (nlive_array r)) labs
                                 (map (fun mm => ext_opt (fst mm)) mms) (map snd mms) in
      (valid -> thread_labels r = Some labs /\ thread_min_max r = Some mms) /\
      (~ valid -> thread_labels r = None /\ thread_min_max r = None).
Proof.
  intros E specs abp w r w' [Hne Hok] Hsa H. rewrite Forall_forall in Hok.
  exact (combine_starts specs Hok Hne E abp w r w' Hsa H).
Qed.
Print Assumptions C72_starts.

(** assert_birth_point: a start which is not the likelihood of exactly one
    sample is an AssertionError, and the generator stays seeded with 0. *)
Theorem C72_assert : forall E specs (w : world E) s, threads_given specs ->
    In s (start_contours (bounds_of specs)) -> occurs s (points_of specs) <> 1%nat ->
    combine_threads (map fst specs) true w = (Raise AssertionError, mkW (r_seed E 0) (w_warn w)).
Proof.
  intros E specs w s [Hne Hok] Hs Ho. rewrite Forall_forall in Hok.
  exact (combine_assert specs Hok Hne E w s Hs Ho).
Qed.
Print Assumptions C72_assert.

(** In the other cases there is a run or an AssertionError, and the generator
    and the warnings are as they were. *)
Theorem C72_outcome : forall E specs abp (w : world E), threads_given specs -> above_lowest specs ->
    (abp = true -> forall s, In s (start_contours (bounds_of specs)) -> occurs s (points_of specs) = 1%nat) ->
    (exists r, combine_threads (map fst specs) abp w = (Ok r, w)) \/
    combine_threads (map fst specs) abp w = (Raise AssertionError, w).
Proof.
  intros E specs abp w [Hne Hok] Hsa Ho. rewrite Forall_forall in Hok.
  exact (combine_outcome specs Hok Hne E abp w Ho Hsa).
Qed.
Print Assumptions C72_outcome.

(** Two threads from -inf meeting in a point at 5, one started at 5 (two
    points there), one at 8 (no point there: nearest is 7). *)
Definition th72 (lab : Z) (lg : list Z) (mm : ext * Z) : run * (Z * (ext * Z)) :=
  (mkRun lg (map (fun x => [x; lab]) lg) (repeat 1 (length lg)) (Some (repeat lab (length lg))) (Some [mm]) None None,
   (lab, mm)).
Definition specs72 : list (run * (Z * (ext * Z))) :=
  [th72 0 [1; 5; 9] (NInf, 9); th72 1 [5; 7] (NInf, 7); th72 2 [6] (Fin 5, 6); th72 3 [10] (Fin 8, 10)].
Lemma given72 : threads_given specs72 /\ above_lowest specs72.
Proof.
  split; [split; [discriminate|]|].
  - repeat constructor; try discriminate; cbn; lia.
  - intros s [<-|[<-|[]]]; exists 1; split; [left; auto|lia|left; auto|lia].
Qed.
Definition nl72 (script : list nat) : list Z :=
  match combine_threads (E := script_env script) (map fst specs72) false (@mkW (script_env script) [4%nat] []) with
  | (Ok r, _) => nlive_array r
  | _ => []
  end.
Example C72_example :
  nl72 [0%nat] = [2; 2; 3; 3; 2; 2; 1] /\ nl72 [1%nat] = [2; 2; 2; 3; 2; 2; 1] /\
  map (fun th => logl (fst th)) specs72 = [[1; 5; 9]; [5; 7]; [6]; [10]] /\
  combine_threads (E := script_env []) (map fst specs72) true (@mkW (script_env []) [4%nat] []) =
  (Raise AssertionError, @mkW (script_env []) [] []).
Proof. vm_compute. auto. Qed.
