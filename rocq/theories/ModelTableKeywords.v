(** Keyword arguments of pandas_functions.py, of the summaries in
    diagnostics_tables.py and of pickle_save: which are known, their defaults, and
    which function passes them on to which.  The functions themselves are those of
    ModelFrames.v, ModelStats.v and ModelIO.v. *)
From Coq Require Import String.
From Verif Require Import Base ModelRun ModelBoot ModelReal ModelStats ModelParallel ModelCalls ModelKeywords ModelPlotKeywords ModelFrames.
From Verif Require ModelIO.
Local Open Scope list_scope. Local Open Scope nat_scope. Local Open Scope Z_scope.

(** An array of numbers, or None: arrays are the objects [OOther n], [arr n] are the
    numbers.  Other objects have no attribute shape. *)
Definition array_or_none (arr : nat -> list fl) (o : option obj) : option (option (list fl)) :=
  given_or (or_none (func arr)) None o.

(** pandas_functions.py:123-202 summary_df(df_in, **kwargs) *)
Definition summary_df_kw (py3 : bool) (arr : nat -> list fl) (nrows : nat) (cols : list (list fl)) (kw : dict obj)
  : res (rows label) :=
  if has_key "df_in" kw then Raise TypeError else
  let '(tv, kw) := pop "true_values" kw in
  let '(it, kw) := pop "include_true_values" kw in
  let '(rm, kw) := pop "include_rmse" kw in
  match kw with
  | _ :: _ => Raise TypeError
  | [] =>
      match array_or_none arr tv with
      | None => Raise AttributeError
      | Some tv => summary_frame py3 nrows cols tv (flag it false) (flag rm false)
      end
  end.

(** pandas_functions.py:12-36 summary_df_from_array(results_array, names, axis=0,
    **kwargs).  Floats and other objects as axis are not modelled; what is not a
    number is neither 0 nor 1. *)
Definition axis_of (o : obj) : option Z :=
  match o with OFloat _ | OOther _ => None | _ => Some (or_else (index o) 2) end.
Definition summary_df_from_array_kw (py3 : bool) (arr : nat -> list fl) (a : list (list fl)) (ncols : nat)
           (names : list string) (kw : dict obj) : res (rows label) :=
  if existsb (fun k => has_key k kw) ["results_array"; "names"]%string then Raise TypeError else
  let '(ax, kw) := pop "axis" kw in
  match axis_of (or_else ax (OInt 0)) with
  | None => Raise (OtherError 0)
  | Some axis =>
      let! _ := assertb ((axis =? 0) || (axis =? 1)) in
      let '(n, cols) := if axis =? 1 then (ncols, a) else (length a, rows_of ncols a) in
      if (length names =? length cols)%nat then summary_df_kw py3 arr n cols kw else Raise ValueError
  end.

(** pandas_functions.py:39-63 summary_df_from_list(results_list, names, **kwargs) *)
Definition summary_df_from_list_kw (py3 : bool) (arr : nat -> list fl) (values : list (list fl)) (names : list string)
           (kw : dict obj) : res (rows label) :=
  if existsb (fun k => has_key k kw) ["results_list"; "names"]%string then Raise TypeError else
  let! _ := mapM (fun v => assertb (length v =? length names)%nat) values in
  match values with
  | [] => Raise ValueError                        (* np.stack of nothing *)
  | _ => summary_df_kw py3 arr (length values) (rows_of (length names) values) kw
  end.

(** inds_to_keep: None or a list of names. *)
Definition keep_of (o : option obj) : option (option (list string)) :=
  given_or (or_none (list_of (fun x => match x with OStr s => Some s | _ => None end))) None o.
(** pandas_functions.py:66-120 summary_df_from_multi(multi_in, inds_to_keep=None,
    **kwargs).  The keywords other than include_true_values go to summary_df for
    every group; so does true_values, which is also used here.  A single string as
    inds_to_keep is not modelled. *)
Definition summary_df_from_multi_kw (py3 : bool) (arr : nat -> list fl) (names : list string) (ncols : nat)
           (df : rows (list string)) (kw : dict obj) : res (rows (list string)) :=
  if has_key "multi_in" kw then Raise TypeError else
  let '(ik, kw) := pop "inds_to_keep" kw in
  let '(it, kw) := pop "include_true_values" kw in
  match keep_of ik with
  | None => Raise (OtherError 0)
  | Some ik =>
  let keep := match ik with Some k => k | None => removelast names end in
  match keep with
  | [] => Raise ValueError                        (* no group keys *)
  | _ =>
      let! pos := mapM (level names) keep in
      let key (l : list string) := map (fun i => nth i l ""%string) pos in
      let keys := map fst (sort_rows string_list_le
                    (map (fun k => (k, tt)) (nodup (list_eq_dec string_dec) (map (fun r => key (fst r)) df)))) in
      let! groups := mapM (fun k =>
          let vals := map snd (filter (fun r => strings_eqb (key (fst r)) k) df) in
          let! f := summary_df_kw py3 arr (length vals) (rows_of ncols vals) (("include_true_values"%string, OBool false) :: kw) in
          Ok (map (fun p => (multi_label keep k (fst p), snd p)) f)) keys in
      match groups with [] => Raise KeyError | _ =>
      let out := concat groups in
      if flag it false
      then match array_or_none arr (get_key "true_values" kw) with
           | Some (Some tv) => Ok (set_row strings_eqb
                              (map (fun n => if String.eqb n calculation_type then "true values" else "")%string
                                   (removelast (multi_names keep)) ++ ["value"%string]) tv out)
           | _ => Raise AssertionError
           end
      else Ok out end
  end end.

(** diagnostics_tables.py:172-228 error_values_summary(error_values,
    **summary_df_kwargs).  All keywords go to summary_df_from_multi.  Of
    inds_to_keep None and ['calculation type'] are modelled. *)
Definition error_values_summary_kw {E} (norm : normals E) (py3 : bool) (arr : nat -> list fl) (ncols : nat)
           (df : rows (list string)) (kw : dict obj) : W E (rows (list string)) :=
  let* _ := bind ["error_values"%string] kw in
  match keep_of (get_key "inds_to_keep" kw) with
  | Some None | Some (Some ["calculation type"%string]) =>
      let* df := wlift (summary_df_from_multi_kw py3 arr [calculation_type; "run"%string] ncols df kw) in
      implementation_rows norm df
  | _ => not_modelled
  end.

(** diagnostics_tables.py:16-120 run_list_error_values(run_list, estimator_list,
    estimator_names, n_simulate=100, **kwargs), with the keywords of the decorator
    save_load_result (io_utils.py:68-72) as far as no file is used; for calls with
    files see [saved_kw].  [q1], [q2], [q3] are the schedules of the parallel maps,
    [nnames] is the number of names. *)
Definition run_list_error_values_kw {E} (q1 q2 q3 : sched E) (srt : list R -> list nat)
           (dist : list fl -> list fl -> list fl) (l : list estimator) (nnames : nat) (runs : list run) (kw : dict obj)
  : W E (list (calc * (nat * list (list fl)))) :=
  let '(name, kw) := pop "save_name" kw in
  let '(save, kw) := pop "save" kw in
  let '(load, kw) := pop "load" kw in
  let '(_, kw) := pop "overwrite_existing" kw in
  let '(_, kw) := pop "warn_if_error" kw in
  if negb match name with None | Some ONone => true | _ => false end || flag save false || flag load false then not_modelled else
  let* _ := bind ["run_list"; "estimator_list"; "estimator_names"]%string kw in
  let '(n, kw) := pop "n_simulate" kw in
  let '(tp, kw) := pop "thread_pvalue" kw in
  let '(bd, kw) := pop "bs_stat_dist" kw in
  let '(pa, kw) := pop "parallel" kw in
  let* _ := no_more kw in
  let* _ := wassert (length l =? nnames)%nat in
  match given_or count 100%nat n with
  | None => not_modelled
  | Some n =>
      let p q := if flag pa true then Some q else None in
      run_list_error_values (p q1) (p q2) (p q3) srt dist l n (flag tp false) (flag bd false) runs
  end.
(** diagnostics_tables.py:231-244 run_list_error_summary(run_list, estimator_list,
    estimator_names, n_simulate, **kwargs) *)
Definition run_list_error_summary_kw {E} (norm : normals E) (py3 : bool) (arr : nat -> list fl) (q1 q2 q3 : sched E)
           (srt : list R -> list nat) (dist : list fl -> list fl -> list fl) (l : list estimator) (nnames : nat)
           (labels : calc -> list string) (runs : list run) (n_simulate : obj) (kw : dict obj) : W E (rows (list string)) :=
  let* _ := bind ["run_list"; "estimator_list"; "estimator_names"; "n_simulate"]%string kw in
  let '(tv, kw) := pop "true_values" kw in
  let '(it, kw) := pop "include_true_values" kw in
  let '(rm, kw) := pop "include_rmse" kw in
  let* frames := run_list_error_values_kw q1 q2 q3 srt dist l nnames runs (("n_simulate"%string, n_simulate) :: kw) in
  error_values_summary_kw norm py3 arr (length l) (error_rows labels frames)
    [("true_values", or_else tv ONone); ("include_true_values", or_else it (OBool false));
     ("include_rmse", or_else rm (OBool false))]%string.

(** pandas_functions.py:205-306 efficiency_gain_df(method_names, method_values,
    est_names, **kwargs).  True values which are not an array are not modelled. *)
Definition efficiency_gain_df_kw (py3 : bool) (arr : nat -> list fl) (names : list Z) (methods : list (list (list fl)))
           (nest : nat) (kw : dict obj) : res (rows gain_label) :=
  if existsb (fun k => has_key k kw) ["method_names"; "method_values"; "est_names"]%string then Raise TypeError else
  let '(tv, kw) := pop "true_values" kw in
  let '(it, kw) := pop "include_true_values" kw in
  let '(rm, kw) := pop "include_rmse" kw in
  let '(an, kw) := pop "adjust_nsamp" kw in
  match kw with
  | _ :: _ => Raise TypeError
  | [] =>
      match array_or_none arr an, array_or_none arr tv with
      | None, _ => Raise AttributeError
      | Some _, None => Raise (OtherError 0)
      | Some an, Some tv => efficiency_gain_frame py3 names methods nest tv (flag it false) (flag rm false) an
      end
  end.

(** ** pickle_save *)
(** io_utils.py:117-142 with any extension. *)
Definition pickle_save_ext (P : ModelIO.pickler) (f : ModelIO.faults) (now : string) (data : ModelIO.value P) (name ext : string)
           (overwrite_existing : bool) : ModelIO.M unit :=
  ModelIO.mbind ModelIO.mget (fun s =>
  let filename := (name ++ ext)%string in
  let d := ModelIO.dirname filename in
  ModelIO.mbind
    (if negb (ModelIO.dirs s d || match ModelIO.files s d with Some _ => true | None => false end) && negb (String.eqb d "")
     then ModelIO.mbind (ModelIO.fail (ModelIO.f_makedirs f)) (fun _ =>
          ModelIO.step (fun s => ModelIO.mkIO (ModelIO.files s) (fun q => String.eqb q d || ModelIO.dirs s q)
                                              (ModelIO.io_warn s) (ModelIO.calls s)))
     else ModelIO.mret tt) (fun _ =>
  let filename := if match ModelIO.files s filename with Some _ => true | None => false end && negb overwrite_existing
                  then (name ++ "_" ++ now ++ ext)%string else filename in
  ModelIO.mcatch (ModelIO.write_file f filename (fst (ModelIO.dump P data)) (snd (ModelIO.dump P data)))
                 ModelIO.caught_saving (fun e => ModelIO.mwarn (ModelIO.WSave e)))).
(** io_utils.py:145-164 pickle_load(name, extension='.pkl') *)
Definition pickle_load_ext (P : ModelIO.pickler) (f : ModelIO.faults) (name ext : string) : ModelIO.M (ModelIO.value P) :=
  ModelIO.mbind (ModelIO.fail (ModelIO.f_read f)) (fun _ =>
  ModelIO.mbind ModelIO.mget (fun s =>
  match ModelIO.files s (name ++ ext)%string with
  | None => ModelIO.mraise (ModelIO.OSErr 2)
  | Some b => match ModelIO.load P b with ModelIO.Done v => ModelIO.mret v | ModelIO.Err e => ModelIO.mraise e end
  end)).
(** io_utils.py:15-36 and 100-121: pickle_save(data, name, **kwargs) with its
    decorator; TypeError is [FuncErr 1], as it is for an extension which is not a
    string (from the addition in line 121; bytes are not modelled). *)
Definition pickle_save_kw (P : ModelIO.pickler) (f : ModelIO.faults) (now : string) (data : ModelIO.value P) (name : string)
           (kw : dict obj) : ModelIO.M unit :=
  let '(_, kw) := pop "print_time" kw in
  if existsb (fun k => has_key k kw) ["data"; "name"]%string then ModelIO.mraise (ModelIO.FuncErr 1) else
  let '(ext, kw) := pop "extension" kw in
  let '(ow, kw) := pop "overwrite_existing" kw in
  match kw, or_else ext (OStr ".pkl") with
  | [], OStr ext => pickle_save_ext P f now data name ext (flag ow true)
  | _, _ => ModelIO.mraise (ModelIO.FuncErr 1)
  end.
(** pickle_load(name, extension='.pkl') by keyword. *)
Definition pickle_load_kw (P : ModelIO.pickler) (f : ModelIO.faults) (name : string) (kw : dict obj) : ModelIO.M (ModelIO.value P) :=
  let '(_, kw) := pop "print_time" kw in
  let '(ext, kw) := pop "extension" kw in
  match kw, or_else ext (OStr ".pkl") with
  | [], OStr ext => pickle_load_ext P f name ext
  | _, _ => ModelIO.mraise (ModelIO.FuncErr 1)
  end.
