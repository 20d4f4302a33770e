(** combine_ns_runs, combine_threads (ns_run_utils.py:170-295) and
    bootstrap_resample_run (error_analysis.py:17-80) with the number of
    parameters of each run: np.vstack of samples arrays with different numbers
    of columns raises ValueError.  In ModelRun.v and ModelBoot.v this is left
    out. *)
From Verif Require Import Base ModelRun ModelBoot.

(** Lines 202 and 257: [np.vstack] of the samples arrays.  A samples array has
    three columns more than theta. *)
Definition vstack (arrays : list (list row)) : res (list row) :=
  match concat arrays with
  | [] => Ok []
  | x :: t => if forallb (fun y => length (r_theta y) =? length (r_theta x))%nat t
              then Ok (x :: t) else Raise ValueError
  end.

(** ns_run_utils.py:170-224 *)
Definition combine_ns_runs_2d {E} (runs : list run) (da dw : bool) : W E run :=
  match runs with
  | [] => wraise ValueError
  | [r] => let* _ := check_ns_run r da dw in wret r
  | _ =>
      let* rl := relabel_runs 0 runs da dw in
      let tmm := flat_map get_tmm rl in
      let* arrays := wlift (mapM array_given_run rl) in
      let* samples := wlift (vstack arrays) in
      let samples := sort_rows E samples in
      let* r := dict_given_run_array samples tmm in
      let out := mkOut (option_map ONum (sum_output o_nlike runs))
                       (option_map ONum (sum_output o_ndead runs)) None [] in
      let r := with_output r (Some out) in
      let* _ := check_ns_run r da dw in
      wret r
  end.

(** ns_run_utils.py:227-295 *)
Definition combine_threads_2d {E} (threads : list run) (assert_bp : bool) : W E run :=
  match threads with
  | [] => wraise ValueError
  | _ =>
      let tmm := flat_map get_tmm threads in
      let* _ := wassert (length threads =? length tmm)%nat in
      let* arrays := wlift (mapM array_given_run threads) in
      let* samples := wlift (vstack arrays) in
      let samples := sort_rows E samples in
      let* state := get_state in
      let* _ := seed 0 in
      let* samples := wfoldM (add_start assert_bp) (finite_starts tmm) samples in
      let* _ := set_state state in
      let* r := dict_given_run_array samples tmm in
      wlift (drop_bad_threads r)
  end.

(** error_analysis.py:17-80 *)
Definition bootstrap_resample_run_2d {E} (r : run) (threads : option (list run))
           (ninit_sep : bool) (b : bseed E) : W E run :=
  let* state := get_state in
  let* _ := apply_seed b in
  let* ths := match threads with
              | Some l => wret l
              | None => get_run_threads r
              end in
  let* inds := draw_inds r (length ths) ninit_sep in
  let* drawn := wmapM (get_thread ths) inds in
  let* res := combine_threads_2d drawn false in
  let res := with_settings res (settings r) in
  let* _ := if seeded b then set_state state else wret tt in
  wret res.
