(** Model of data_processing.py:258-300 process_multinest_run with the two files
    it reads, where ModelData.v has the arrays only. *)
From Coq Require Import List String Ascii Bool ZArith.
From Verif Require Import Base ModelRun ModelData ModelNames ModelStatsFile ModelWrite ModelCalls.
From Verif Require ModelKeywords.
Import ListNotations.
Local Open Scope list_scope.
Local Open Scope Z_scope.

(** Lines 283-285: np.loadtxt of a named file; a missing file is an OSError. *)
Definition load (N : savefmt) (s : store) (name : text) : res (list (list Z)) :=
  match s name with None => Raise OSError | Some file => loadtxt N file end.

(** [x[-2]] of a row with at least two numbers. *)
Definition second_last (x : list Z) : Z := nth (length x - 2) x 0.

(** Lines 283-300.  Arrays with one dimension (no row, one row or one column) are
    an IndexError in lines 287-288, and arrays with less than two columns left
    in line 289; then come the comparison of likelihoods and np.vstack of arrays of
    different widths, line 293.  [process] is process_samples_array with the
    keywords.  Returned with the run are file_root and base_dir. *)
Definition read_multinest_with {E} (process : list samp -> W E run) (N : savefmt) (root base : text) (s : store)
  : W E (run * (text * text)) :=
  let* dead := wlift (load N s (path_join base root ++ la "dead-birth.txt")) in
  let* live := wlift (load N s (path_join base root ++ la "phys_live-birth.txt")) in
  if negb (two_dims dead) then wraise IndexError
  else if negb (two_dims live) then wraise IndexError
  else
    let dead := map (drop_cols 2) dead in
    let live := map (drop_cols 1) live in
    if (length (hd [] dead) <? 2)%nat then wraise IndexError
    else if (length (hd [] live) <? 2)%nat then wraise IndexError
    else
      let* _ := wassert (max_list (map second_last dead) <? min_list (map second_last live)) in
      if (length (hd [] dead) =? length (hd [] live))%nat then
        let* r := process (map samp_of_row (dead ++ live)) in
        let* _ := wassert (forallb (fun mm => is_ninf (fst mm)) (get_tmm r)) in
        wret (r, (root, base))
      else wraise ValueError.
Definition read_multinest_run {E} (N : savefmt) (root base : text) (da dw : bool) (s : store) : W E (run * (text * text)) :=
  read_multinest_with (fun samples => process_samples_array samples da dw) N root base s.
(** process_multinest_run(file_root, base_dir, **kwargs): all keywords go to
    process_samples_array. *)
Definition read_multinest_run_kw {E} (N : savefmt) (root base : text) (s : store) (kw : dict ModelKeywords.obj)
  : W E (run * (text * text)) :=
  let* _ := ModelKeywords.bind ["file_root"; "base_dir"]%string kw in
  read_multinest_with (fun samples => ModelKeywords.process_samples_array_kw samples kw) N root base s.
