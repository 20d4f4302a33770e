(** Model of the bootstrap part of nestcheck/error_analysis.py. *)
From Verif Require Import Base ModelRun.

(** The random_seed argument: False, an integer, or None (seed from the
    operating system: the state becomes an arbitrary one, given here). *)
Inductive bseed (E : env) :=
| BKeep
| BInt (z : Z)
| BFresh (s : rst E).
Arguments BKeep {E}. Arguments BInt {E} z. Arguments BFresh {E} s.

(** [if random_seed is not False: np.random.seed(random_seed)] *)
Definition apply_seed {E} (b : bseed E) : W E unit :=
  match b with
  | BKeep => wret tt
  | BInt z => seed z
  | BFresh s => set_state s
  end.
Definition seeded {E} (b : bseed E) : bool :=
  match b with BKeep => false | _ => true end.

(** error_analysis.py:53-70: choice of the thread indexes.  A KeyError (no
    settings, or no ninit in it) falls back to ninit_sep=False with a warning.
    thread_min_max None is not subscriptable (TypeError).  A negative size
    (ninit larger than the number of threads) raises ValueError. *)
Definition draw_inds {E} (r : run) (n : nat) (ninit_sep : bool) : W E (list nat) :=
  if ninit_sep then
    match settings r with
    | Some (Some ninit) =>
        match thread_min_max r with
        | None => wraise TypeError
        | Some tmm =>
            let* _ := wassert (forallb (fun mm => is_ninf (fst mm)) (firstn ninit tmm)) in
            let* a := randint 0 ninit ninit in
            if (n <? ninit)%nat then wraise ValueError
            else let* b := randint ninit n (n - ninit) in wret (a ++ b)
        end
    | _ => let* _ := warn WNoNinit in randint 0 n n
    end
  else randint 0 n n.

(** error_analysis.py:73-76: [resampled_run['settings'] = ns_run['settings']] *)
Definition with_settings (r : run) (s : option (option nat)) : run :=
  mkRun (logl r) (theta r) (nlive_array r) (thread_labels r) (thread_min_max r)
        (output r) s.

(** [threads[i]]: IndexError out of range. *)
Definition get_thread {E} (threads : list run) (i : nat) : W E run :=
  match nth_error threads i with
  | Some th => wret th
  | None => wraise IndexError
  end.

(** error_analysis.py:17-80 bootstrap_resample_run.  [threads] is [None] to
    split the run here. *)
Definition bootstrap_resample_run {E} (r : run) (threads : option (list run))
           (ninit_sep : bool) (b : bseed E) : W E run :=
  let* state := get_state in
  let* _ := apply_seed b in
  let* ths := match threads with
              | Some l => wret l
              | None => get_run_threads r
              end in
  let* inds := draw_inds r (length ths) ninit_sep in
  let* drawn := wmapM (get_thread ths) inds in
  let* res := combine_threads drawn false in
  let res := with_settings res (settings r) in
  let* _ := if seeded b then set_state state else wret tt in
  wret res.

(** error_analysis.py:158-173 run_bootstrap_values up to the flip of the skew
    (see ModelStats.v): one column per seed.  [est] is run_estimators for the
    given list of estimators; it does not use the random generator. *)
Definition bootstrap_columns {E A} (est : run -> res A) (r : run) (ninit_sep : bool)
           (n_simulate : nat) (seeds : list (bseed E)) : W E (list A) :=
  let* _ := wassert (length seeds =? n_simulate)%nat in
  let* ths := get_run_threads r in
  wmapM (fun b => let* rr := bootstrap_resample_run r (Some ths) ninit_sep b in
                  wlift (est rr)) seeds.

(** The default random_seeds: range(n_simulate). *)
Definition default_seeds {E} (n : nat) : list (bseed E) := map BInt (zrange n).
