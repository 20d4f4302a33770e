(** Model of parallel_utils.py, and of the functions which use it:
    data_processing.batch_process_data and the data frames of
    diagnostics_tables.py. *)
From Verif Require Import Base ModelRun ModelData.

(** ** Worker processes

    Every task is run in a worker process, which has its own copy of the random
    state; its warnings and its random state are not passed back.  A schedule
    is the order in which the tasks are completed together with the random
    state in which each of them starts.  How tasks are spread over workers
    matters only through these. *)
Record sched (E : env) := mkSched { s_order : list nat; s_state : nat -> rst E }.
Arguments s_order {E}. Arguments s_state {E}. Arguments mkSched {E}.

(** Outcome of a computation in a worker. *)
Definition in_worker {E A} (m : W E A) (s : rst E) : res A := fst (m (mkW s [])).

(** parallel_utils.py:70-142 parallel_apply.  [par] is [None] for
    parallel=False, else the schedule.  as_completed (line 138) yields the
    futures in order of completion, and [fut.result()] re-raises the exception
    of a task.  [pw] is parallel_warning.  The checks of keyword arguments
    (lines 113-119) are not modelled. *)
Definition parallel_apply {E A B} (par : option (sched E)) (pw : bool) (f : A -> W E B)
           (xs : list A) : W E (list B) :=
  match par with
  | None => let* _ := if pw then warn WNoParallel else wret tt in wmapM f xs
  | Some s =>
      wlift (mapM (fun i => match nth_error xs i with
                            | Some x => in_worker (f x) (s_state s i)
                            | None => Raise IndexError
                            end) (s_order s))
  end.

(** concurrent.futures' chunking of the arguments. *)
Fixpoint chunks_fuel {A} (fuel k : nat) (l : list A) : list (list A) :=
  match fuel, l with
  | S n, _ :: _ => firstn k l :: chunks_fuel n k (skipn k l)
  | _, _ => []
  end.
Definition chunks {A} (k : nat) (l : list A) : list (list A) := chunks_fuel (length l) k l.

(** parallel_utils.py:12-67 parallel_map with one iterable.  A chunk is one
    task, so the schedule's order does not matter: pool.map returns the results
    in the order of the arguments. *)
Definition parallel_map {E A B} (par : option (sched E)) (pw : bool) (chunksize : nat)
           (f : A -> W E B) (xs : list A) : W E (list B) :=
  match par with
  | None => let* _ := if pw then warn WNoParallel else wret tt in wmapM f xs
  | Some s =>
      if (chunksize =? 0)%nat then wraise ValueError
      else wlift (let cs := chunks chunksize xs in
                  let! rs := mapM (fun '(i, c) => in_worker (wmapM f c) (s_state s i))
                                  (combine (seq 0 (length cs)) cs) in
                  Ok (concat rs))
  end.

(** ** data_processing.py:102-209 *)

(** Result of process_error_helper: a run, or the name of the error and root. *)
Inductive item := IRun (r : run) | IErr (e : exn) (root : Z).

(** data_processing.py:172-209 process_error_helper; [handled] tells which
    exceptions are instances of errors_to_handle. *)
Definition process_error_helper {E} (proc : Z -> W E run) (handled : exn -> bool)
           (root : Z) : W E item :=
  fun w => match proc root w with
           | (Ok r, w') => (Ok (IRun r), w')
           | (Raise e, w') => (if handled e then Ok (IErr e root) else Raise e, w')
           end.

(** [x['output']['file_root']] *)
Definition item_root (x : item) : res Z :=
  match x with
  | IErr _ root => Ok root
  | IRun r => match output r with
              | Some o => match o_root o with Some z => Ok z | None => Raise KeyError end
              | None => Raise KeyError
              end
  end.
(** [l.index(z)] *)
Fixpoint index_of (z : Z) (l : list Z) : res nat :=
  match l with
  | [] => Raise ValueError
  | x :: t => if x =? z then Ok 0%nat else let! i := index_of z t in Ok (S i)
  end.

(** Python's [sorted] by a key: stable. *)
Fixpoint insert_key {A} (k : nat) (x : A) (l : list (nat * A)) : list (nat * A) :=
  match l with
  | [] => [(k, x)]
  | (k', y) :: t => if (k <=? k')%nat then (k, x) :: l else (k', y) :: insert_key k x t
  end.
Definition sorted_key {A} (l : list (nat * A)) : list A :=
  map snd (fold_right (fun '(k, x) acc => insert_key k x acc) [] l).

Definition exn_eq_dec : forall a b : exn, {a = b} + {a <> b}.
Proof. decide equality. apply Nat.eq_dec. Defined.

(** Lines 148-155: [errors[name].append(i)], a dictionary in insertion order. *)
Fixpoint add_error (e : exn) (i : nat) (d : list (exn * list nat)) : list (exn * list nat) :=
  match d with
  | [] => [(e, [i])]
  | (e', l) :: t => if exn_eq_dec e e' then (e', l ++ [i]) :: t else (e', l) :: add_error e i t
  end.
Fixpoint collect_errors (i : nat) (data : list item) (d : list (exn * list nat))
  : list (exn * list nat) :=
  match data with
  | [] => d
  | IErr e _ :: t => collect_errors (S i) t (add_error e i d)
  | IRun _ :: t => collect_errors (S i) t d
  end.

(** Lines 156-162: the printed message: error name, number of errors, number of
    roots and, unless all of them failed with it, the indexes. *)
Record message := mkMsg { m_error : exn; m_count : nat; m_total : nat; m_inds : option (list nat) }.
Definition message_of (n : nat) (p : exn * list nat) : message :=
  let '(e, l) := p in
  mkMsg e (length l) n (if (length l =? n)%nat then None else Some l).

(** data_processing.py:102-169 batch_process_data, without the caching
    decorator.  Returns what is printed and the runs. *)
Definition batch_process_data {E} (par : option (sched E)) (pw : bool)
           (proc : Z -> W E run) (handled : exn -> bool) (roots : list Z)
  : W E (list message * list run) :=
  let* data := parallel_apply par pw (process_error_helper proc handled) roots in
  let* keyed := wlift (mapM (fun x => let! z := item_root x in
                                      let! k := index_of z roots in Ok (k, x)) data) in
  let data := sorted_key keyed in
  let errors := collect_errors 0 data [] in
  wret (map (message_of (length roots)) errors,
        flat_map (fun x => match x with IRun r => [r] | IErr _ _ => [] end) data).

(** ** diagnostics_tables.py

    Data frames are lists of rows.  [est] stands for run_estimators with the
    given estimators: one value per estimator. *)

(** error_analysis.py:335-355 run_thread_values: one list of values per thread. *)
Definition run_thread_values {E A} (est : run -> res (list A)) (r : run) : W E (list (list A)) :=
  let* ths := get_run_threads r in
  let* vals := wlift (mapM est ths) in
  match vals with
  | [] => wraise ValueError          (* np.stack of nothing *)
  | _ => wret vals
  end.

(** diagnostics_tables.py:122-169 estimator_values_df *)
Definition estimator_values_df {E A} (par : option (sched E)) (est : run -> res (list A))
           (runs : list run) : W E (list (list A)) :=
  let* vals := parallel_apply par true (fun r => wlift (est r)) runs in
  match vals with
  | [] => wraise ValueError
  | _ => wret vals
  end.

(** diagnostics_tables.py:291-331 thread_values_df, for at least one estimator
    (with none, or with no runs, [df.loc[0]] raises KeyError). *)
Definition thread_values_df {E A} (par : option (sched E)) (est : run -> res (list A))
           (runs : list run) : W E (list (list (list A))) :=
  let* arrs := parallel_apply par true (run_thread_values est) runs in
  match arrs, runs with
  | a0 :: _, r0 :: _ =>
      match thread_min_max r0 with
      | None => wraise AttributeError
      | Some tmm => let* _ := wassert (length a0 =? length tmm)%nat in wret arrs
      end
  | _, _ => wraise KeyError
  end.

(** error_analysis.py:358-394 pairwise_distances: the index and the rows. *)
Definition pairwise {A B} (dist : A -> A -> B) (l : list A) : list ((nat * nat) * B) :=
  flat_map (fun '(i, x) =>
    flat_map (fun '(j, y) => if (j <? i)%nat then [((i, j), dist x y)] else [])
             (combine (seq 0 (length l)) l))
    (combine (seq 0 (length l)) l).
