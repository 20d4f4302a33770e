(** Model of dummy_data.py: dummy runs for tests. *)
From Verif Require Import Base ModelRun ModelData.

(** np.random.random: [u_logl n] are n draws multiplied by logl_range (which is
    taken to be positive, so they are not negative), [u_theta n] the parameter
    values of n samples.  Both may be any functions of the random state. *)
Record uniform_draws (E : env) := mkDraws {
  u_logl : nat -> rst E -> list Z * rst E;
  u_theta : nat -> rst E -> list (list Z) * rst E;
  u_logl_length : forall n s, length (fst (u_logl n s)) = n;
  u_logl_pos : forall n s x, In x (fst (u_logl n s)) -> 0 <= x;
  u_theta_length : forall n s, length (fst (u_theta n s)) = n
}.
Arguments u_logl {E}. Arguments u_theta {E}.
Definition draw {E A} (f : rst E -> A * rst E) : W E A :=
  fun w => let '(x, s) := f (w_rng w) in (Ok x, mkW s (w_warn w)).
Definition maybe_seed {E} (o : option Z) : W E unit :=
  match o with Some z => seed z | None => wret tt end.

(** np.sort *)
Definition np_sort (E : env) (l : list Z) : list Z := take 0 l (argsort E l).

(** dummy_data.py:11-47 get_dummy_thread; the addition of logl_start is exact
    (line 45).  Without samples line 46 raises IndexError. *)
Definition get_dummy_thread {E} (U : uniform_draws E) (nsamples : nat) (sd : option Z) (logl_start : ext)
  : W E run :=
  let* _ := maybe_seed sd in
  let* ls := draw (u_logl U nsamples) in
  let* ths := draw (u_theta U nsamples) in
  let lg := np_sort E ls in
  let lg := match logl_start with NInf => lg | Fin z => map (Z.add z) lg end in
  match lg with
  | [] => wraise IndexError
  | _ => wret (mkRun lg ths (repeat 1 nsamples) (Some (repeat 0 nsamples))
                     (Some [(logl_start, last lg 0)]) None None)
  end.

Definition run0 : run := mkRun [] [] [] None None None None.
(** thread['thread_labels'] = np.full(nsamples, i) for the i-th thread. *)
Definition set_labels (nsamples : nat) (threads : list run) : list run :=
  map (fun '(i, th) => mkRun (logl th) (theta th) (nlive_array th)
                             (Some (repeat (Z.of_nat i) nsamples)) (thread_min_max th) (output th) (settings th))
      (combine (seq 0 (length threads)) threads).

(** dummy_data.py:50-96 get_dummy_run.  The threads are sorted on their first
    logl; for equal values the order is arbitrary here (sorted is stable). *)
Definition get_dummy_run {E} (U : uniform_draws E) (nthread nsamples : nat) (sd : option Z) (logl_start : ext)
  : W E run :=
  let* _ := maybe_seed sd in
  let* threads := wmapM (fun _ => get_dummy_thread U nsamples None logl_start) (seq 0 nthread) in
  let threads := take run0 threads (argsort E (map (fun th => nth 0 (logl th) 0) threads)) in
  combine_threads (set_labels nsamples threads) false.

(** dummy_data.py:99-148 get_dummy_dynamic_run; np.random.choice of an empty
    array raises ValueError. [logl_init] is the default -1e30 of
    run_dead_birth_array. *)
Definition get_dummy_dynamic_run {E} (U : uniform_draws E) (nsamples nthread_init nthread_dyn : nat)
           (sd : option Z) (logl_init : Z) : W E run :=
  let* init := get_dummy_run U nthread_init nsamples sd NInf in
  let* dyn_starts := choice_n (logl init) nthread_dyn in
  let* threads := get_run_threads init in
  let* dyn := wmapM (fun start => get_dummy_thread U nsamples None (Fin start)) dyn_starts in
  let* run := combine_threads (set_labels nsamples (threads ++ dyn)) false in
  let* samples := run_dead_birth_array run logl_init false false in
  process_samples_array samples false false.
