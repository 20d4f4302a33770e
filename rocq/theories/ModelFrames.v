(** Model of the rows of pandas data frames: pandas_functions.py summary_df,
    summary_df_from_array, summary_df_from_multi, efficiency_gain_df and
    paper_format_efficiency_gain_df, and diagnostics_tables.py
    error_values_summary.

    A data frame is a list of rows, each with its label and its values.  Names
    of columns are distinct.  What pandas does is taken from its documentation:
    assigning to a label which there is not adds a row at the end, sorting is by
    labels with the order of categories where they are categorical, groups are
    sorted by their labels. *)
From Coq Require Import Reals String Ascii.
From Verif Require Import Base ModelRun ModelBoot ModelParallel ModelReal ModelStats ModelNames ModelStatsFile.
Local Open Scope list_scope.
Local Open Scope nat_scope.

Definition rows (K : Type) := list (K * list fl).

(** [df.loc[k, :] = v] *)
Definition set_row {K} (eqb : K -> K -> bool) (k : K) (v : list fl) (d : rows K) : rows K :=
  if existsb (fun p => eqb (fst p) k) d
  then map (fun p => if eqb (fst p) k then (k, v) else p) d
  else d ++ [(k, v)].
(** [df.loc[k]] *)
Definition get_row {K} (eqb : K -> K -> bool) (k : K) (d : rows K) : res (list fl) :=
  match find (fun p => eqb (fst p) k) d with Some p => Ok (snd p) | None => Raise KeyError end.
(** df.sort_index: insertion sort. *)
Fixpoint insert_row {K V} (le : K -> K -> bool) (p : K * V) (d : list (K * V)) : list (K * V) :=
  match d with
  | [] => [p]
  | q :: t => if le (fst p) (fst q) then p :: d else q :: insert_row le p t
  end.
Definition sort_rows {K V} (le : K -> K -> bool) (d : list (K * V)) : list (K * V) :=
  fold_right (insert_row le) [] d.

(** Code of a category. *)
Fixpoint code {A} (eqb : A -> A -> bool) (cats : list A) (x : A) : nat :=
  match cats with [] => 0 | c :: t => if eqb c x then 0 else S (code eqb t x) end.
(** Lexicographic order of two codes. *)
Definition lex (c1 c2 : nat) (next : bool) : bool := (c1 <? c2) || (c1 =? c2) && next.

(** Labels: calculation type, result type. *)
Definition label := (string * string)%type.
Definition label_eqb (a b : label) : bool := String.eqb (fst a) (fst b) && String.eqb (snd a) (snd b).
Definition calc_cats : list string := ["true values"; "mean"; "std"; "rmse"]%string.
Definition result_cats : list string := ["value"; "uncertainty"]%string.
Definition label_le (a b : label) : bool :=
  lex (code String.eqb calc_cats (fst a)) (code String.eqb calc_cats (fst b))
      (code String.eqb result_cats (snd a) <=? code String.eqb result_cats (snd b)).

(** pandas_functions.py:123-202 summary_df: all rows.  The data frame is given
    by its columns and number of rows. *)
Definition summary_frame (py3 : bool) (nrows : nat) (cols : list (list fl)) (true_values : option (list fl))
           (include_true_values include_rmse : bool) : res (rows label) :=
  let! _ := assertb match true_values with Some tv => length tv =? length cols | None => true end in
  let df := [("mean", map pd_mean cols); ("std", map pd_std cols)]%string in
  let! df := if include_true_values
             then match true_values with
                  | Some tv => Ok (set_row String.eqb "true values"%string tv df)
                  | None => Raise AssertionError
                  end
             else Ok df in
  let! std := get_row String.eqb "std"%string df in
  let mean_unc := map (fun s => fdiv s (lift1 sqrt (Some (INR nrows)))) std in
  let! factor := std_unc_factor py3 nrows in
  let std_unc := map (fun s => fmul s factor) std in
  let df := map (fun p => ((fst p, "value"%string), snd p)) df in
  let df := set_row label_eqb ("mean", "uncertainty")%string mean_unc df in
  let df := set_row label_eqb ("std", "uncertainty")%string std_unc df in
  let! df := if include_rmse
             then match true_values with
                  | Some tv =>
                      let r := map2 rmse_and_unc cols tv in
                      let df := set_row label_eqb ("rmse", "value")%string (map fst r) df in
                      Ok (set_row label_eqb ("rmse", "uncertainty")%string (map snd r) df)
                  | None => Raise AssertionError
                  end
             else Ok df in
  Ok (sort_rows label_le df).

(** pandas_functions.py:12-39 summary_df_from_array; [arr] are the rows of the
    array, which has [ncols] columns. *)
Definition summary_df_from_array (py3 : bool) (arr : list (list fl)) (ncols : nat) (names : list string) (axis : Z)
           (true_values : option (list fl)) (include_true_values include_rmse : bool) : res (rows label) :=
  let! _ := assertb ((axis =? 0)%Z || (axis =? 1)%Z) in
  let '(n, cols) := if (axis =? 1)%Z then (ncols, arr) else (length arr, rows_of ncols arr) in
  if length names =? length cols
  then summary_frame py3 n cols true_values include_true_values include_rmse
  else Raise ValueError.

(** ** summary_df_from_multi *)
(** Order of labels of groups: that of lists of strings. *)
Fixpoint string_list_le (a b : list string) : bool :=
  match a, b with
  | [], _ => true
  | _ :: _, [] => false
  | x :: a', y :: b' => match String.compare x y with Lt => true | Eq => string_list_le a' b' | Gt => false end
  end.
Definition strings_eqb (a b : list string) : bool := if list_eq_dec string_dec a b then true else false.
Definition calculation_type : string := "calculation type"%string.
(** Position of a level: KeyError if there is none. *)
Definition level (names : list string) (lev : string) : res nat :=
  if existsb (String.eqb lev) names then Ok (code (fun a b => String.eqb b a) names lev) else Raise KeyError.
(** Label of a row of the result; [key] is that of the group. *)
Definition multi_label (keep key : list string) (l : label) : list string :=
  if existsb (String.eqb calculation_type) keep
  then map snd (filter (fun p => negb (String.eqb (fst p) calculation_type)) (combine keep key)) ++
       [String.append (nth (code (fun a b => String.eqb b a) keep calculation_type) key ""%string)
                      (String.append " " (fst l)); snd l]
  else key ++ [fst l; snd l].
(** Names of the levels of the result. *)
Definition multi_names (keep : list string) : list string :=
  (if existsb (String.eqb calculation_type) keep
   then filter (fun k => negb (String.eqb k calculation_type)) keep else keep) ++ [calculation_type; "result type"%string].
(** pandas_functions.py:66-120.  [names] are the levels of the index, [df] the
    rows with [ncols] columns.  A data frame without rows has no groups; pandas
    then returns a frame without the level 'calculation type'. *)
Definition summary_df_from_multi (py3 : bool) (names : list string) (ncols : nat) (df : rows (list string))
           (inds_to_keep : option (list string)) (true_values : option (list fl))
           (include_true_values include_rmse : bool) : res (rows (list string)) :=
  let keep := match inds_to_keep with Some k => k | None => removelast names end in
  match keep with
  | [] => Raise ValueError                        (* no group keys *)
  | _ =>
      let! pos := mapM (level names) keep in
      let key (l : list string) := map (fun i => nth i l ""%string) pos in
      let keys := map fst (sort_rows string_list_le
                    (map (fun k => (k, tt)) (nodup (list_eq_dec string_dec) (map (fun r => key (fst r)) df)))) in
      let! groups := mapM (fun k =>
          let vals := map snd (filter (fun r => strings_eqb (key (fst r)) k) df) in
          let! f := summary_frame py3 (length vals) (rows_of ncols vals) true_values false include_rmse in
          Ok (map (fun p => (multi_label keep k (fst p), snd p)) f)) keys in
      match groups with [] => Raise KeyError | _ =>
      let out := concat groups in
      if include_true_values
      then match true_values with
           | Some tv => Ok (set_row strings_eqb
                              (map (fun n => if String.eqb n calculation_type then "true values" else "")%string
                                   (removelast (multi_names keep)) ++ ["value"%string]) tv out)
           | None => Raise AssertionError
           end
      else Ok out end
  end.

(** ** diagnostics_tables.py *)
(** Names of calculation types (diagnostics_tables.py:74, 85, 101, 111-117). *)
Definition calc_name (c : calc) : string :=
  match c with
  | CValues => "values"
  | CBsStd => "bootstrap std"
  | CThreadKs => "thread ks pvalue"
  | CBsDist 1 => "bootstrap ks distance"
  | CBsDist 2 => "bootstrap earth mover distance"
  | CBsDist 3 => "bootstrap energy distance"
  | CBsDist _ => ""
  end%string.
(** The data frame of error values; [runs c n] are the labels of the runs or of
    pairs of runs. *)
Definition error_rows (runs : calc -> list string) (frames : list (calc * (nat * list (list fl)))) : rows (list string) :=
  flat_map (fun '(c, (n, cols)) =>
              map (fun i => ([calc_name c; nth i (runs c) ""%string], map (fun col => nth i col None) cols)) (seq 0 n)) frames.
(** diagnostics_tables.py:217-227 *)
Definition calcs_to_keep : list string :=
  ["true values"; "values mean"; "values std"; "values rmse"; "bootstrap std mean";
   "implementation std"; "implementation std frac"; "implementation rmse"; "implementation rmse frac";
   "thread ks pvalue mean"; "bootstrap ks distance mean"; "bootstrap energy distance mean";
   "bootstrap earth mover distance mean"]%string.
Definition calc_of (p : list string * list fl) : string := nth 0 (fst p) ""%string.
(** diagnostics_tables.py:192-228, of error_values_summary: [df] is the summary of
    the error values. *)
Definition implementation_rows {E} (norm : normals E) (df : rows (list string)) : W E (rows (list string)) :=
  let get (c r : string) := wlift (get_row strings_eqb [c; r] df) in
  let* v := get "values std" "value"%string in
  let* vu := get "values std" "uncertainty"%string in
  let* b := get "bootstrap std mean" "value"%string in
  let* bu := get "bootstrap std mean" "uncertainty"%string in
  let nsim := Z.to_nat 1000000 in
  let* i1 := implementation_std norm v vu b bu nsim (BInt 0) in
  let set c r f (i : list imp) d := set_row strings_eqb [c; r] (map f i) d in
  let df1 := set "implementation std frac" "uncertainty" imp_frac_u i1
            (set "implementation std frac" "value" imp_frac i1
            (set "implementation std" "uncertainty" imp_std_u i1
            (set "implementation std" "value" imp_std i1 df)))%string in
  let* df2 :=
    if existsb (fun p => String.eqb (calc_of p) "values rmse"%string) df1
    then
      let get1 (c r : string) := wlift (get_row strings_eqb [c; r] df1) in
      let* v := get1 "values rmse" "value"%string in
      let* vu := get1 "values rmse" "uncertainty"%string in
      let* b := get1 "bootstrap std mean" "value"%string in
      let* bu := get1 "bootstrap std mean" "uncertainty"%string in
      let* i2 := implementation_std norm v vu b bu nsim (BInt 0) in
      wret (set "implementation rmse frac" "uncertainty" imp_frac_u i2
           (set "implementation rmse frac" "value" imp_frac i2
           (set "implementation rmse" "uncertainty" imp_std_u i2
           (set "implementation rmse" "value" imp_std i2 df1))))%string
    else wret df1 in
  wret (flat_map (fun c => filter (fun p => String.eqb (calc_of p) c) df2) calcs_to_keep).
(** diagnostics_tables.py:172-228 error_values_summary: all rows. *)
Definition error_values_frame {E} (norm : normals E) (py3 : bool) (ncols : nat) (df : rows (list string))
           (true_values : option (list fl)) (include_true_values include_rmse : bool) : W E (rows (list string)) :=
  let* df := wlift (summary_df_from_multi py3 [calculation_type; "run"%string] ncols df None true_values
                                          include_true_values include_rmse) in
  implementation_rows norm df.

(** diagnostics_tables.py:231-244 run_list_error_summary: all rows. *)
Definition run_list_error_frame {E} (norm : normals E) (py3 : bool) (p1 p2 p3 : option (sched E))
           (srt : list R -> list nat) (dist : list fl -> list fl -> list fl) (l : list estimator)
           (n_simulate : nat) (thread_pvalue bs_stat_dist : bool) (labels : calc -> list string)
           (true_values : option (list fl)) (include_true_values include_rmse : bool) (runs : list run)
  : W E (rows (list string)) :=
  let* frames := run_list_error_values p1 p2 p3 srt dist l n_simulate thread_pvalue bs_stat_dist runs in
  error_values_frame norm py3 (length l) (error_rows labels frames) true_values include_true_values include_rmse.

(** ** efficiency_gain_df *)
(** Labels: calculation type, dynamic settings, result type.  Names of methods
    are integers, 0 is the empty string. *)
Definition gain_label := (string * (Z * string))%type.
Definition gain_label_eqb (a b : gain_label) : bool :=
  String.eqb (fst a) (fst b) && (fst (snd a) =? fst (snd b))%Z && String.eqb (snd (snd a)) (snd (snd b)).
Definition gain_cats : list string :=
  ["true values"; "mean"; "std"; "rmse"; "std efficiency gain"; "rmse efficiency gain"]%string.
Definition gain_le (names : list Z) (a b : gain_label) : bool :=
  lex (code String.eqb gain_cats (fst a)) (code String.eqb gain_cats (fst b))
      (lex (code Z.eqb (0%Z :: names) (fst (snd a))) (code Z.eqb (0%Z :: names) (fst (snd b)))
           (code String.eqb result_cats (snd (snd a)) <=? code String.eqb result_cats (snd (snd b)))).
(** The rows of a summary. *)
Definition summary_rows (s : list colsum) : rows label :=
  [(("mean", "value"), map s_mean s); (("mean", "uncertainty"), map s_mean_unc s);
   (("std", "value"), map s_std s); (("std", "uncertainty"), map s_std_unc s)]%string.
Definition rmse_rows (s : list colsum) : rows label :=
  [(("rmse", "value"), map (fun c => fst (get_rmse c)) s); (("rmse", "uncertainty"), map (fun c => snd (get_rmse c)) s)]%string.
(** pandas_functions.py:258-287: the rows of one method. *)
Definition method_frame (include_rmse : bool) (m : method_rows) : rows label :=
  let df := summary_rows (m_sum m) ++ (if include_rmse then rmse_rows (m_sum m) else []) in
  let add key (g : option (list (fl * fl))) d :=
    match g with
    | Some l => set_row label_eqb (key, "uncertainty"%string) (map snd l)
                  (set_row label_eqb (key, "value"%string) (map fst l) d)
    | None => d
    end in
  add "rmse efficiency gain"%string (m_gain_rmse m) (add "std efficiency gain"%string (m_gain m) df).
(** pandas_functions.py:288-306.  Without true values the row for them is of
    nan. *)
Definition efficiency_gain_frame (py3 : bool) (names : list Z) (methods : list (list (list fl))) (nest : nat)
           (true_values : option (list fl)) (include_true_values include_rmse : bool) (adjust_nsamp : option (list fl))
  : res (rows gain_label) :=
  let! d := efficiency_gain_df py3 names methods nest true_values include_rmse adjust_nsamp in
  let results := flat_map (fun '(name, m) =>
                   map (fun p => ((fst (fst p), (name, snd (fst p))), snd p)) (method_frame include_rmse m)) d in
  let results := if include_true_values
                 then set_row gain_label_eqb ("true values", (0%Z, "value"))%string
                        (match true_values with Some tv => tv | None => repeat None nest end) results
                 else results in
  Ok (sort_rows (gain_le names) results).

(** ** paper_format_efficiency_gain_df *)
(** np.rint: the nearest integer, the even one of two. *)
Definition rint (x : R) : Z :=
  let f := Int_part x in
  let d := (x - IZR f)%R in
  if Rlt_dec d (1 / 2) then f
  else if Rlt_dec (1 / 2) d then (f + 1)%Z
  else if Z.even f then f else (f + 1)%Z.
(** str.replace: all occurrences from the left.  Older pandas take the pattern as
    a regular expression, in which the two full stops of 'St.Dev. efficiency
    gain' stand for any character; here they stand for themselves. *)
Fixpoint replace_go (old new : text) (skip : nat) (l : text) : text :=
  match l with
  | [] => []
  | c :: t =>
      match skip with
      | S k => replace_go old new k t
      | O => if starts_with old l then new ++ replace_go old new (length old - 1) t
             else c :: replace_go old new 0 t
      end
  end.
Definition str_replace (old new l : text) : text := replace_go old new 0 l.
(** pandas_functions.py:336-343: replacements in the order of the dictionary. *)
Definition row_name_map : list (text * text) :=
  [(la "std efficiency gain", la "Efficiency gain"); (la "St.Dev. efficiency gain", la "Efficiency gain");
   (la "dynamic ", []); (la "std", la "St.Dev.")].
Definition row_name (mapping : list (text * text)) (calc name : text) : text :=
  fold_left (fun s '(key, value) => str_replace key value s) mapping (calc ++ la " " ++ name).
(** [means[col]]: position of a column. *)
Definition column (names : list string) (col : string) : option nat :=
  if existsb (String.eqb col) names then Some (code (fun a b => String.eqb b a) names col) else None.
Fixpoint set_nth {A} (i : nat) (v : A) (l : list A) : list A :=
  match l, i with
  | [], _ => []
  | _ :: t, O => v :: t
  | x :: t, S k => x :: set_nth k v t
  end.
(** pandas_functions.py:327-335, one of the two columns. *)
Definition paper_column (cols : list string) (means paper : rows gain_label) (col : string) : res (rows gain_label) :=
  match column cols col with
  | None => Ok paper
  | Some j =>
      let! vals := mapM (fun p => match nth j (snd p) None with
                                  | Some x => Ok [Some (IZR (rint x)); None]
                                  | None => Raise ValueError
                                  end) means in
      let col_vals := concat vals ++ repeat None (length paper - length (concat vals)) in
      if length col_vals =? length paper
      then Ok (map2 (fun p v => (fst p, set_nth j v (snd p))) paper col_vals)
      else Raise ValueError
  end.
(** pandas_functions.py:309-345; [cols] are the names of the columns, [txt] the
    texts of the names of methods.  What pandas does if a calculation type is
    missing depends on its version; it is a KeyError here. *)
Definition paper_format_efficiency_gain_df (mapping : list (text * text)) (txt : Z -> text) (cols : list string)
           (df : rows gain_label) : res (rows (text * string)) :=
  let has c := existsb (fun p => String.eqb (fst (fst p)) c) df in
  if has "std"%string && has "std efficiency gain"%string && has "mean"%string then
    let paper := filter (fun p => String.eqb (fst (fst p)) "std" || String.eqb (fst (fst p)) "std efficiency gain")%string df in
    let means := filter (fun p => String.eqb (fst (fst p)) "mean" && String.eqb (snd (snd (fst p))) "value")%string df in
    let! paper := paper_column cols means paper "samples"%string in
    let! paper := paper_column cols means paper "likelihood calls"%string in
    Ok (map (fun p => ((row_name mapping (la (fst (fst p))) (txt (fst (snd (fst p)))), snd (snd (fst p))), snd p)) paper)
  else Raise KeyError.
