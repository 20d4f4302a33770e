(** Model of the statistics in error_analysis.py, pandas_functions.py and
    diagnostics_tables.py, over the real numbers.

    [None] is a float which is not a finite number.  The values of estimators
    are finite or nan, so it stands for nan wherever the code distinguishes
    nan from infinity (skipping of nan by pandas). *)
From Coq Require Import Reals ListDec.
From Verif Require Import Base ModelRun ModelBoot ModelParallel ModelReal.
Local Open Scope R_scope.

Notation fl := (option R).
(** Arithmetic of floats: nan if an argument is nan. *)
Definition lift1 (f : R -> R) (x : fl) : fl := option_map f x.
Definition lift2 (f : R -> R -> R) (x y : fl) : fl :=
  match x, y with Some a, Some b => Some (f a b) | _, _ => None end.
Definition fadd := lift2 Rplus.
Definition fsub := lift2 Rminus.
Definition fmul := lift2 Rmult.
Definition fdiv (x y : fl) : fl :=
  match x, y with
  | Some a, Some b => if Req_EM_T b 0 then None else Some (a / b)
  | _, _ => None
  end.
Definition fsq (x : fl) : fl := lift1 (fun a => a ^ 2) x.

(** The values of a list without nan; [None] if there is one. *)
Fixpoint all_finite (l : list fl) : option (list R) :=
  match l with
  | [] => Some []
  | Some x :: t => option_map (cons x) (all_finite t)
  | None :: _ => None
  end.
(** The values which are not nan. *)
Definition finite_part (l : list fl) : list R :=
  flat_map (fun x => match x with Some a => [a] | None => [] end) l.

(** Mean, and standard deviation with ddof=1, of finite numbers: nan if there
    are none, or less than two. *)
Definition mean_of (l : list R) : fl :=
  match l with [] => None | _ => Some (rsum l / INR (length l)) end.
Definition std_of (l : list R) : fl :=
  if (length l <=? 1)%nat then None
  else let m := rsum l / INR (length l) in
       Some (sqrt (rsum (map (fun x => (x - m) ^ 2) l) / (INR (length l) - 1))).

(** np.mean and np.std(ddof=1): nan if there is a nan. *)
Definition np_mean (l : list fl) : fl :=
  match all_finite l with Some xs => mean_of xs | None => None end.
Definition np_std (l : list fl) : fl :=
  match all_finite l with Some xs => std_of xs | None => None end.
(** DataFrame.mean and DataFrame.std(ddof=1): nan values are skipped. *)
Definition pd_mean (l : list fl) : fl := mean_of (finite_part l).
Definition pd_std (l : list fl) : fl := std_of (finite_part l).

(** ** error_analysis.py: bootstrap errors *)

(** Row [j] of an array given by its columns. *)
Definition nth_row (cols : list (list fl)) (j : nat) : list fl :=
  map (fun col => nth j col None) cols.
Definition rows_of (k : nat) (cols : list (list fl)) : list (list fl) :=
  map (nth_row cols) (seq 0 k).

(** error_analysis.py:174-177: flip the skew of one row. *)
Definition flip_row (row : list fl) : list fl :=
  let mu := np_mean row in map (fun x => fsub (fmul (Some 2) mu) x) row.

(** error_analysis.py:117-178 run_bootstrap_values: one row per estimator. *)
Definition run_bootstrap_values {E} (srt : list R -> list nat) (r : run) (l : list estimator)
           (ninit_sep flip_skew : bool) (n_simulate : nat) (seeds : list (bseed E))
  : W E (list (list fl)) :=
  let* cols := bootstrap_columns (fun rr => run_estimators srt rr l None) r ninit_sep
                                 n_simulate seeds in
  let rows := rows_of (length l) cols in
  wret (if flip_skew then map flip_row rows else rows).

(** error_analysis.py:83-114 run_std_bootstrap *)
Definition run_std_bootstrap {E} (srt : list R -> list nat) (r : run) (l : list estimator)
           (ninit_sep flip_skew : bool) (n_simulate : nat) (seeds : list (bseed E))
  : W E (list fl) :=
  let* rows := run_bootstrap_values srt r l ninit_sep flip_skew n_simulate seeds in
  wret (map np_std rows).

(** np.interp at a point, of values which may be nan. *)
Fixpoint finterp_go (x x0 : R) (f0 : fl) (t : list (R * fl)) : fl :=
  match t with
  | [] => f0
  | (x1, f1) :: t' =>
      if Rlt_dec x x1
      then if Req_EM_T x0 x then f0
           else fadd (fmul (fdiv (fsub f1 f0) (Some (x1 - x0))) (Some (x - x0))) f0
      else finterp_go x x1 f1 t'
  end.
Definition finterp (x : R) (xs : list R) (fs : list fl) : res fl :=
  match combine xs fs with
  | [] => Raise ValueError
  | (x0, f0) :: t => Ok (if Rlt_dec x x0 then f0 else finterp_go x x0 f0 t)
  end.
(** np.sort: nan values are last. *)
Definition np_sort (srt : list R -> list nat) (l : list fl) : list fl :=
  let xs := finite_part l in
  map Some (take 0 xs (srt xs)) ++ repeat None (length l - length xs).

(** error_analysis.py:181-221 run_ci_bootstrap; [cdf] is line 214. *)
Definition cdf (n : nat) : list R := map (fun i => (INR i + 0.5) / INR n) (seq 0 n).
(** error_analysis.py:181-221 *)
Definition run_ci_bootstrap {E} (srt : list R -> list nat) (r : run) (l : list estimator)
           (cred_int : R) (ninit_sep flip_skew : bool) (n_simulate : nat) (seeds : list (bseed E))
  : W E (list fl) :=
  let* rows := run_bootstrap_values srt r l ninit_sep flip_skew n_simulate seeds in
  let* expected := wlift (run_estimators srt r l None) in
  wlift (mapM (fun '(t, row) =>
                 let! q := finterp (1 - cred_int) (cdf n_simulate) (np_sort srt row) in
                 Ok (fsub (fmul t (Some 2)) q))
              (combine expected rows)).

(** np.random.random: any function of the random state. *)
Definition uniforms (E : env) := nat -> rst E -> list R * rst E.
Definition random {E} (U : uniforms E) (n : nat) : W E (list R) :=
  fun w => let '(l, s) := U n (w_rng w) in (Ok l, mkW s (w_warn w)).

(** error_analysis.py:224-260 run_std_simulate.  [get_logx] makes its checks
    before it draws random numbers. *)
Definition run_std_simulate {E} (U : uniforms E) (srt : list R -> list nat) (r : run) (l : list estimator)
           (n_simulate : option nat) : W E (list fl) :=
  match n_simulate with
  | None => wraise AssertionError
  | Some n =>
      let* cols := wmapM (fun _ =>
                     let* _ := wlift (get_logx (nlive_array r) None) in
                     let* us := random U (length (nlive_array r)) in
                     wlift (run_estimators srt r l (Some us))) (seq 0 n) in
      wret (map np_std (rows_of (length l) cols))
  end.

(** ** error_analysis.py:267-332 implementation_std *)

(** Normal random numbers: any function of mean, standard deviation, number of
    samples and random state. *)
Definition normals (E : env) := fl -> fl -> nat -> rst E -> list fl * rst E.
Definition normal {E} (norm : normals E) (mu sigma : fl) (n : nat) : W E (list fl) :=
  match sigma with
  | Some s =>
      if Rlt_dec s 0 then wraise ValueError
      else fun w => let '(l, st) := norm mu sigma n (w_rng w) in (Ok l, mkW st (w_warn w))
  | None => fun w => let '(l, st) := norm mu sigma n (w_rng w) in (Ok l, mkW st (w_warn w))
  end.

(** np.sign and [np.sqrt(np.abs(v)) * np.sign(v)] *)
Definition sign (x : R) : R := if Rlt_dec 0 x then 1 else if Rlt_dec x 0 then -1 else 0.
Definition signed_sqrt (v : fl) : fl := lift1 (fun x => sqrt (Rabs x) * sign x) v.
(** [imp_std[np.where(imp_std <= 0)[0]] = 0]; comparisons with nan are false. *)
Definition no_negative (v : fl) : fl :=
  match v with Some x => if Rle_dec x 0 then Some 0 else Some x | None => None end.

Record imp := mkImp { imp_std : fl; imp_std_u : fl; imp_frac : fl; imp_frac_u : fl }.

(** Lines 312-330 for one element. *)
Definition imp_one {E} (norm : normals E) (nsim : nat) (b : bseed E) (v vu s su : fl) : W E imp :=
  let istd := no_negative (signed_sqrt (fsub (fsq v) (fsq s))) in
  let* state := get_state in
  let* _ := apply_seed b in
  let* sv := normal norm v vu nsim in
  let* ss := normal norm s su nsim in
  let si := map2 (fun a c => signed_sqrt (fsub (fsq a) (fsq c))) sv ss in
  let* _ := set_state state in
  wret (mkImp istd (np_std si) (fdiv istd v) (np_std (map2 fdiv si sv))).

(** Arrays of different lengths raise ValueError or IndexError in Python
    (except for numpy's broadcasting of length-one arrays); ValueError here. *)
Definition implementation_std {E} (norm : normals E) (vals vals_u bs bs_u : list fl)
           (nsim : nat) (b : bseed E) : W E (list imp) :=
  if ((length vals_u =? length vals) && (length bs =? length vals) &&
      (length bs_u =? length vals))%nat
  then wmapM (fun '((v, vu), (s, su)) => imp_one norm nsim b v vu s su)
             (combine (combine vals vals_u) (combine bs bs_u))
  else wraise ValueError.

(** ** pandas_functions.py *)

(** pandas_functions.py:393-426 rmse_and_unc, for one quantity. *)
Definition rmse_and_unc (values : list fl) (true_value : fl) : fl * fl :=
  let sq := map (fun x => fsq (fsub x true_value)) values in
  let m_unc := fdiv (np_std sq) (lift1 sqrt (Some (INR (length values)))) in
  let rmse := lift1 sqrt (np_mean sq) in
  (rmse, fmul (fmul (Some 0.5) (fdiv (Some 1) rmse)) m_unc).

(** One column of the data frame returned by summary_df. *)
Record colsum := mkSum {
  s_mean : fl; s_mean_unc : fl; s_std : fl; s_std_unc : fl;
  s_rmse : option (fl * fl) }.

(** [df.loc['std'] * np.sqrt(1 / (2 * (num_cals - 1)))]: the division is
    between integers, and with Python 2.7 (which the package supports)
    truncates. *)
Definition std_unc_factor (py3 : bool) (n : nat) : res fl :=
  match n with
  | O => Ok None                                  (* sqrt of -1/2 *)
  | S O => Raise ZeroDivisionError
  | _ => Ok (Some (if py3 then sqrt (1 / (2 * (INR n - 1))) else 0))
  end.
(** pandas_functions.py:163-201, one column. *)
Definition summary_column (factor : fl) (true_value : option fl) (col : list fl) : colsum :=
  let s := pd_std col in
  mkSum (pd_mean col) (fdiv s (lift1 sqrt (Some (INR (length col))))) s (fmul s factor)
        (option_map (rmse_and_unc col) true_value).

(** pandas_functions.py:123-202 summary_df.  The data frame is given by its
    columns and number of rows; the rows of the result are in
    ModelFrames.v. *)
Definition summary_df (py3 : bool) (nrows : nat) (cols : list (list fl)) (true_values : option (list fl))
           (include_rmse : bool) : res (list colsum) :=
  let! _ := assertb match true_values with
                    | Some tv => (length tv =? length cols)%nat
                    | None => true
                    end in
  let! factor := std_unc_factor py3 nrows in
  if include_rmse then
    match true_values with
    | Some tv => Ok (map2 (fun t c => summary_column factor (Some t) c) tv cols)
    | None => Raise AssertionError
    end
  else Ok (map (summary_column factor None) cols).

(** pandas_functions.py:429-453 array_ratio_std *)
Definition array_ratio_std (vn sn vd sd : fl) : fl :=
  fmul (lift1 sqrt (fadd (fsq (fdiv sn vn)) (fsq (fdiv sd vd)))) (fdiv vn vd).

(** pandas_functions.py:352-390 get_eff_gain *)
Definition get_eff_gain (b bu m mu adjust : fl) : fl * fl :=
  let ratio := fdiv b m in
  let ratio_unc := array_ratio_std b bu m mu in
  (fmul (fsq ratio) adjust, fmul (fmul (fmul (Some 2) ratio) ratio_unc) adjust).

(** pandas_functions.py:39-63 summary_df_from_list *)
Definition summary_df_from_list (py3 : bool) (values : list (list fl)) (nest : nat)
           (true_values : option (list fl)) (include_rmse : bool) : res (list colsum) :=
  let! _ := mapM (fun arr => assertb (length arr =? nest)%nat) values in
  match values with
  | [] => Raise ValueError                        (* np.stack of nothing *)
  | _ => summary_df py3 (length values) (rows_of nest values) true_values include_rmse
  end.

(** Rows of the efficiency gain data frame for one method. *)
Record method_rows := mkMeth {
  m_sum : list colsum; m_gain : option (list (fl * fl)); m_gain_rmse : option (list (fl * fl)) }.
(** A dictionary with keys in order of insertion. *)
Fixpoint dict_set {A} (k : Z) (v : A) (d : list (Z * A)) : list (Z * A) :=
  match d with
  | [] => [(k, v)]
  | (k', v') :: t => if (k =? k')%Z then (k, v) :: t else (k', v') :: dict_set k v t
  end.
Fixpoint dict_get {A} (k : Z) (d : list (Z * A)) : res A :=
  match d with
  | [] => Raise KeyError
  | (k', v) :: t => if (k =? k')%Z then Ok v else dict_get k t
  end.
(** Lines 272-281 for one statistic; [get] gives its value and uncertainty. *)
Definition gains (get : colsum -> fl * fl) (adjust : fl) (base new : list colsum) : list (fl * fl) :=
  map2 (fun b m => get_eff_gain (fst (get b)) (snd (get b)) (fst (get m)) (snd (get m)) adjust) base new.
(** rmse and its uncertainty of a summary. *)
Definition get_rmse (s : colsum) : fl * fl :=
  match s_rmse s with Some p => p | None => (None, None) end.

(** pandas_functions.py:205-306 efficiency_gain_df: the rows for every method
    name; names are integers here, with 0 for the empty string.  Lines 283-293
    fail without methods, and when the categories (the names and '') are not
    distinct.  Sorting of the rows and the row of true values are in
    ModelFrames.v. *)
Definition efficiency_gain_df (py3 : bool) (names : list Z) (methods : list (list (list fl))) (nest : nat)
           (true_values : option (list fl)) (include_rmse : bool) (adjust_nsamp : option (list fl))
  : res (list (Z * method_rows)) :=
  let! _ := assertb match adjust_nsamp with
                    | Some a => (length a =? length names)%nat
                    | None => true
                    end in
  let! _ := assertb (length names =? length methods)%nat in
  let! d :=
  foldM (fun d '(i, (name, values)) =>
           let! s := summary_df_from_list py3 values nest true_values include_rmse in
           let! rows :=
             if (i =? 0)%nat then Ok (mkMeth s None None)
             else
               let adjust := match adjust_nsamp with
                             | Some a => fdiv (nth 0 a None) (nth i a None)
                             | None => Some 1
                             end in
               let! base := dict_get (hd 0%Z names) d in
               Ok (mkMeth s (Some (gains (fun c => (s_std c, s_std_unc c)) adjust (m_sum base) s))
                          (if include_rmse
                           then Some (gains get_rmse adjust (m_sum base) s) else None)) in
           Ok (dict_set name rows d))
        (combine (seq 0 (length names)) (combine names methods)) [] in
  match names with
  | [] => Raise ValueError
  | _ => if ListDec.NoDup_dec Z.eq_dec (0%Z :: names) then Ok d else Raise ValueError
  end.

(** ** diagnostics_tables.py *)

(** diagnostics_tables.py:247-288 bs_values_df, with random_seeds the default
    range(n_simulate): one array (rows: estimators) for each run. *)
Definition bs_values_df {E} (par : option (sched E)) (srt : list R -> list nat) (l : list estimator)
           (n_simulate : nat) (runs : list run) : W E (list (list (list fl))) :=
  let* arrs := parallel_apply par true
                 (fun r => run_bootstrap_values srt r l false true n_simulate
                                                (default_seeds n_simulate)) runs in
  match arrs, l with
  | [], _ | _, [] => wraise KeyError              (* [df.loc[0]] *)
  | _, _ => wret arrs
  end.

(** Kinds of rows of the data frame of error values; the distances are numbered
    as in statistical_distances. *)
Inductive calc := CValues | CBsStd | CThreadKs | CBsDist (k : nat).

(** Column of estimator [j] in a table with a cell for each run. *)
Definition cells {A} (d : A) (table : list (list A)) (j : nat) : list A :=
  map (fun row => nth j row d) table.
(** diagnostics_tables.py:334-357 pairwise_dists_on_cols, distance [k]: for
    each estimator the values over pairs of runs. *)
Definition pair_columns {A} (dist : A -> A -> list fl) (k nest : nat) (d : A) (table : list (list A))
  : list (list fl) :=
  map (fun j => map (fun p => nth k (snd p) None) (pairwise dist (cells d table j))) (seq 0 nest).

(** diagnostics_tables.py:16-119 run_list_error_values, without the caching
    decorator: the columns for each calculation type.  [dist] is
    statistical_distances; [p1], [p2], [p3] are the schedules of the three
    calls of parallel_apply. *)
Definition run_list_error_values {E} (p1 p2 p3 : option (sched E)) (srt : list R -> list nat)
           (dist : list fl -> list fl -> list fl) (l : list estimator) (n_simulate : nat)
           (thread_pvalue bs_stat_dist : bool) (runs : list run)
  : W E (list (calc * (nat * list (list fl)))) :=
  let k := length l in
  let npairs (n : nat) := (n * (n - 1) / 2)%nat in
  let* vals := estimator_values_df p1 (fun r => run_estimators srt r l None) runs in
  let* bs := bs_values_df p2 srt l n_simulate runs in
  let stds := map (map np_std) bs in
  let frames := [(CValues, (length vals, rows_of k vals)); (CBsStd, (length stds, rows_of k stds))] in
  let* frames :=
    if thread_pvalue then
      let* tv := thread_values_df p3 (fun r => run_estimators srt r l None) runs in
      (* each cell: the values of the threads *)
      let table := map (rows_of k) tv in
      wret (frames ++ [(CThreadKs, (npairs (length tv), pair_columns dist 0 k [] table))])
    else wret frames in
  if bs_stat_dist
  then wret (frames ++ map (fun d => (CBsDist d, (npairs (length bs), pair_columns dist d k [] bs)))
                           [1%nat; 2%nat; 3%nat])
  else wret frames.

(** Rows of the error summary. *)
Record err_summary := mkErr {
  e_groups : list (calc * list colsum);
  e_imp : list imp;
  e_imp_rmse : option (list imp) }.

(** diagnostics_tables.py:193-211: selection of the rows 'values' and 'bootstrap std'. *)
Definition find_calc (c : calc) (g : list (calc * list colsum)) : res (list colsum) :=
  match find (fun p => match fst p, c with
                       | CValues, CValues | CBsStd, CBsStd => true
                       | _, _ => false end) g with
  | Some p => Ok (snd p)
  | None => Raise KeyError
  end.

(** diagnostics_tables.py:172-228 error_values_summary (with
    pandas_functions.py:66-120 summary_df_from_multi): summary_df of every
    group, and the implementation errors with the default seed 0.  Of the
    groups the code keeps only some rows (lines 217-227); which ones depends
    on nothing but the names. *)
Definition error_values_summary {E} (norm : normals E) (py3 : bool)
           (frames : list (calc * (nat * list (list fl)))) (true_values : option (list fl))
           (include_rmse : bool) : W E err_summary :=
  let* groups := wlift (mapM (fun '(c, (n, cols)) =>
                                let! s := summary_df py3 n cols true_values include_rmse in
                                Ok (c, s)) frames) in
  let* v := wlift (find_calc CValues groups) in
  let* b := wlift (find_calc CBsStd groups) in
  let nsim := Z.to_nat 1000000 in
  let* i1 := implementation_std norm (map s_std v) (map s_std_unc v) (map s_mean b)
                                (map s_mean_unc b) nsim (BInt 0) in
  let* i2 :=
    if include_rmse then
      let get f := map (fun s => match s_rmse s with Some p => f p | None => None end) v in
      let* i := implementation_std norm (get fst) (get snd) (map s_mean b) (map s_mean_unc b)
                                   nsim (BInt 0) in
      wret (Some i)
    else wret None in
  wret (mkErr groups i1 i2).

(** diagnostics_tables.py:231-244 run_list_error_summary *)
Definition run_list_error_summary {E} (norm : normals E) (py3 : bool) (p1 p2 p3 : option (sched E))
           (srt : list R -> list nat) (dist : list fl -> list fl -> list fl) (l : list estimator)
           (n_simulate : nat) (thread_pvalue bs_stat_dist : bool) (true_values : option (list fl))
           (include_rmse : bool) (runs : list run) : W E err_summary :=
  let* frames := run_list_error_values p1 p2 p3 srt dist l n_simulate thread_pvalue bs_stat_dist runs in
  error_values_summary norm py3 frames true_values include_rmse.
