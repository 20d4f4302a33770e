(** combine_ns_runs (ns_run_utils.py:170-224) on runs whose thread_labels
    arrays may be one and the same object, as when a run is given twice.
    copy.deepcopy keeps such sharing, and line 198 adds to the array in place. *)
From Verif Require Import Base ModelRun.

(** The arrays of thread labels; a run refers to one of them by its index. *)
Definition heap := list (list Z).
Record obj := mkObj { ob_run : run; ob_ref : nat }.

(** The run as Python sees it when the arrays are [h].  A reference to no array
    stands for None. *)
Definition see (h : heap) (x : obj) : run :=
  mkRun (logl (ob_run x)) (theta (ob_run x)) (nlive_array (ob_run x))
        (nth_error h (ob_ref x)) (thread_min_max (ob_run x))
        (output (ob_run x)) (settings (ob_run x)).

(** Lines 195-199: [run_list[i]['thread_labels'] += nthread_tot] changes the
    array, hence all the runs which refer to it. *)
Fixpoint relabel_shared {E} (tot : nat) (objs : list obj) (h : heap) (da dw : bool)
  : W E heap :=
  match objs with
  | [] => wret h
  | x :: t =>
      let* _ := check_ns_run (see h x) da dw in
      match nth_error h (ob_ref x), thread_min_max (ob_run x) with
      | Some labs, Some tmm =>
          relabel_shared (tot + length tmm) t
                         (upd (ob_ref x) (map (Z.add (Z.of_nat tot)) labs) h) da dw
      | _, _ => wraise AttributeError
      end
  end.

(** Lines 191-224 *)
Definition combine_shared {E} (objs : list obj) (h : heap) (da dw : bool) : W E run :=
  match objs with
  | [] => wraise ValueError
  | [x] => let* _ := check_ns_run (see h x) da dw in wret (see h x)
  | _ =>
      let* h' := relabel_shared 0 objs h da dw in
      let rl := map (see h') objs in
      let tmm := flat_map get_tmm rl in
      let* samples := wlift (mapM array_given_run rl) in
      let samples := sort_rows E (concat samples) in
      let* r := dict_given_run_array samples tmm in
      let runs := map (see h) objs in
      let out := mkOut (option_map ONum (sum_output o_nlike runs))
                       (option_map ONum (sum_output o_ndead runs)) None [] in
      let r := with_output r (Some out) in
      let* _ := check_ns_run r da dw in
      wret r
  end.
