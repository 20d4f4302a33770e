(** Model of plots.py:21-154 plot_run_nlive, 157-232 kde_plot_df and 793-818
    average_by_key: the numbers which are plotted.  Names (of methods, columns
    and rows) are integers. *)
From Verif Require Import Base ModelRun ModelReal ModelStats ModelPlots.
Local Open Scope R_scope.

(** ** plot_run_nlive *)

(** A run and, if there is one, its key 'logx'. *)
Record nrun := mkNRun { n_nlive : list Z; n_logl : list Z; n_logx : option (list fl) }.
(** A line: the values of logx and nlive, the last value of logx before the first was
    changed (the same, unless there is one sample), and the area under the line. *)
Record line := mkLine { l_logx : list fl; l_nlive : list Z; l_last : fl; l_area : fl }.

(** plots.py:89-95 *)
Definition run_logx (given : option (list Z -> list fl)) (r : nrun) : res (list fl) :=
  match n_logx r, given with
  | Some l, _ => Ok l
  | None, Some f => Ok (f (n_logl r))
  | None, None => let! l := get_logx (n_nlive r) None in Ok (map Some l)
  end.
(** np.trapz, nan if one of the values of x is *)
Definition ftrapz (y : list R) (x : list fl) : fl := option_map (trapz y) (all_finite x).
(** plots.py:89-112.  The array whose first element is set to 0 in line 97 is the
    one in the run, if it has the key 'logx'; the change stays when ax.plot raises
    ValueError because of different lengths.  logx_given_logl is taken to return a
    new array. *)
Definition run_line (given : option (list Z -> list fl)) (r : nrun) : res line * nrun :=
  match run_logx given r with
  | Raise e => (Raise e, r)
  | Ok [] => (Raise IndexError, r)
  | Ok ((_ :: t) as l) =>
      let logx := Some 0 :: t in
      let r' := match n_logx r with
                | Some _ => mkNRun (n_nlive r) (n_logl r) (Some logx)
                | None => r
                end in
      if (length logx =? length (n_nlive r))%nat
      then (Ok (mkLine logx (n_nlive r) (last l None) (lift1 Ropp (ftrapz (map IZR (n_nlive r)) logx))), r')
      else (Raise ValueError, r')
  end.
(** plots.py:87-112, the runs of one method *)
Fixpoint runs_lines (given : option (list Z -> list fl)) (l : list nrun) : res (list line) * list nrun :=
  match l with
  | [] => (Ok [], [])
  | r :: t =>
      match run_line given r with
      | (Raise e, r') => (Raise e, r' :: t)
      | (Ok x, r') =>
          let '(xs, t') := runs_lines given t in
          (let! xs := xs in Ok (x :: xs), r' :: t')
      end
  end.
(** plots.py:86-113, all methods; the second part of the result is run_dict
    afterwards. *)
Fixpoint methods_lines (given : option (list Z -> list fl)) (names : list Z) (d : list (Z * list nrun))
  : res (list (Z * list line)) * list (Z * list nrun) :=
  match names with
  | [] => (Ok [], d)
  | m :: t =>
      match dict_get m d with
      | Raise e => (Raise e, d)
      | Ok runs =>
          let '(x, runs') := runs_lines given runs in
          let d' := dict_set m runs' d in
          match x with
          | Raise e => (Raise e, d')
          | Ok ls => let '(xs, d'') := methods_lines given t d' in
                     (let! xs := xs in Ok ((m, ls) :: xs), d'')
          end
      end
  end.
(** plots.py:84, 113: integrals_dict *)
Definition integrals_dict (ls : list (Z * list line)) : list (Z * list R) :=
  fold_left (fun d '(m, l) => dict_set m (finite_part (map l_area l)) d) ls [].

(** plots.py:793-818 average_by_key; np.mean of an empty array is nan,
    np.concatenate of nothing raises ValueError. *)
Definition average_by_key (d : list (Z * list R)) (key : option Z) : res fl :=
  let average := match d with
                 | [] => Raise ValueError
                 | _ => Ok (mean_of (concat (map snd d)))
                 end in
  match key with
  | None => average
  | Some k => match dict_get k d with Ok l => Ok (mean_of l) | Raise _ => average end
  end.

(** np.linspace *)
Definition linspace (a b : R) (n : nat) : list R :=
  map (fun i => a + INR i * ((b - a) / INR (n - 1))) (seq 0 n).
(** np.cumsum *)
Fixpoint fcumsum_from (s : fl) (l : list fl) : list fl :=
  match l with [] => [] | x :: t => fadd s x :: fcumsum_from (fadd s x) t end.
Definition is_number (x : fl) : bool := match x with Some _ => true | None => false end.

(** The two analytic curves, plots.py:119-144: logx, relative posterior mass and
    posterior mass remaining.  logl_given_logx is applied to every point; nan
    stands for the results of divisions by 0. *)
Definition analytic (g : R -> fl) (logx_min : R) (npoints : nat) (norm cum_norm : option Z)
           (ints : list (Z * list R)) : res (list R * list fl * list fl) :=
  let logx := filter (fun x => is_number (g x)) (linspace logx_min 0 npoints) in
  let! w := rel_posterior_mass logx (finite_part (map g logx)) in
  let! a := average_by_key ints norm in
  let w := map (fun v => fmul v a) w in
  let c := fcumsum_from (Some 0) w in
  let s := option_map (fun y => trapz y logx) (all_finite c) in
  let! b := average_by_key ints cum_norm in
  Ok (logx, w, map (fun v => fmul (fdiv v s) b) c).

(** What is plotted: for each method its lines (of which the first has the name of
    the method as label), the lower limit of the axis, and the analytic curves. *)
Record nlive_plot := mkPlot {
  np_lines : list (Z * list line); np_xmin : R; np_curves : option (list R * list fl * list fl) }.
(** plots.py:60-154 plot_run_nlive, and run_dict afterwards.  The limits of an
    axis must not be nan (ValueError). *)
Definition plot_run_nlive (names : list Z) (d : list (Z * list nrun)) (given : option (list Z -> list fl))
           (logl_given : option (R -> fl)) (logx_min : option R) (npoints : nat) (norm cum_norm : option Z)
  : res nlive_plot * list (Z * list nrun) :=
  if negb (forallb (fun m => existsb (Z.eqb m) (map fst d)) names
           && forallb (fun k => existsb (Z.eqb k) names) (map fst d))%bool
  then (Raise AssertionError, d)
  else
    let '(x, d') := methods_lines given names d in
    (let! ls := x in
     let! lo := match logx_min with
                | Some m => Ok m
                | None => match map l_last (flat_map snd ls) with
                          | [] => Raise ValueError
                          | l => match all_finite l with
                                 | Some xs => Ok (rmin xs)
                                 | None => Raise ValueError
                                 end
                          end
                end in
     let! cur := match logl_given with
                 | None => Ok None
                 | Some g => let! c := analytic g lo npoints norm cum_norm (integrals_dict ls) in Ok (Some c)
                 end in
     Ok (mkPlot ls lo cur), d').

(** ** kde_plot_df *)

(** plots.py:203-206: the axes of column [nax], as row and column.  plt.subplots
    returns a single object for one subplot, an array with one dimension for one
    row or column and one with two dimensions otherwise. *)
Definition axis (nrows ncols nax : nat) : res (nat * nat) :=
  if (nrows =? 1)%nat then
    if (ncols =? 1)%nat then Raise TypeError
    else if (nax <? ncols)%nat then Ok (0, nax)%nat else Raise IndexError
  else if (ncols =? 1)%nat then Raise IndexError
  else if (nax / ncols <? nrows)%nat then Ok (nax / ncols, nax mod ncols)%nat else Raise IndexError.

(** plots.py:207-210: the points at which the densities are evaluated; np.min and
    np.max raise ValueError for cells without samples.  (Without rows the points
    are nan, but there is nothing to evaluate.) *)
Definition support (cells : list (list R)) : res (list R) :=
  if existsb (fun c => (length c =? 0)%nat) cells then Raise ValueError
  else
    let lo := rmin (map rmin cells) in
    let hi := rmax (map rmax cells) in
    Ok (linspace (lo - 0.1 * (hi - lo)) (hi + 0.1 * (hi - lo)) 200).

(** What is plotted for a column: its subplot, the points, and for each row its
    name and the values. *)
Record kde_axes := mkAxes { k_axes : nat * nat; k_support : list R; k_lines : list (Z * list fl) }.
(** plots.py:202-218 for one column; [kde] is scipy.stats.gaussian_kde. *)
Definition kde_column (kde : list R -> list R -> res (list R)) (normalize : bool) (nrows ncols nax : nat)
           (rows : list (Z * list R)) : res kde_axes :=
  let! ax := axis nrows ncols nax in
  let! sup := support (map snd rows) in
  let! lines := mapM (fun '(name, samps) =>
                        let! pdf := kde samps sup in
                        Ok (name, map (fun v => if normalize then Some v else fdiv (Some v) (Some (rmax pdf)))
                                      pdf)) rows in
  Ok (mkAxes ax sup lines).

(** plots.py:157-232 kde_plot_df: the subplots, and the names in the legend (those
    of the last column).  [df] is a list of columns.  The default for ncols is
    computed even if it is given; under Python 2.7 ([py3] false) its division is
    one of integers.  The handling of xlims and of the ticks is left out. *)
Definition kde_plot_df (py3 : bool) (kde : list R -> list R -> res (list R)) (df : list (list (Z * list R)))
           (nrows : nat) (ncols : option nat) (normalize legend : bool)
  : res (list kde_axes * option (list Z)) :=
  if (nrows =? 0)%nat then Raise ZeroDivisionError
  else
    let nc := match ncols with
              | Some n => n
              | None => if py3 then ((length df + nrows - 1) / nrows)%nat else (length df / nrows)%nat
              end in
    if (nc =? 0)%nat then Raise ValueError
    else
      let! cols := mapM (fun '(nax, rows) => kde_column kde normalize nrows nc nax rows)
                        (combine (seq 0 (length df)) df) in
      if legend then
        match cols with
        | [] => Raise NameError
        | _ => Ok (cols, Some (map fst (k_lines (last cols (mkAxes (0, 0)%nat [] [])))))
        end
      else Ok (cols, None).
