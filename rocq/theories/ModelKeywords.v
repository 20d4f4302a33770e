(** Keyword arguments: which are known, their defaults, to which function they
    are passed on, and what is raised when (TypeError for unknown keywords,
    KeyError for missing ones).  The functions themselves are those of the other
    files; a call is given by its dictionary of keywords [kw]. *)
From Coq Require Import String.
From Verif Require Import Base ModelRun ModelData ModelBoot ModelReal ModelStats ModelDummy ModelParallel ModelCalls.
From Verif Require ModelIO ModelFrames ModelStatsFile ModelWrite.
Local Open Scope list_scope. Local Open Scope nat_scope. Local Open Scope Z_scope.

(** Python objects given for keywords.  Floats are [-inf] or finite (in units of
    2^-1074).  [OOther] are all other objects. *)
Inductive obj :=
| ONone | OBool (b : bool) | OInt (z : Z) | OFloat (x : ext) | OStr (s : string) | OList (l : list obj)
| OOther (n : nat).

(** bool(x); other objects are true. *)
Definition truth (o : obj) : bool :=
  match o with
  | ONone => false
  | OBool b => b
  | OInt z => negb (z =? 0)
  | OFloat (Fin z) => negb (z =? 0)
  | OFloat NInf => true
  | OStr s => negb (s =? "")%string
  | OList l => negb (length l =? 0)%nat
  | OOther _ => true
  end.
(** operator.index(x), as range does it: True is 1. *)
Definition index (o : obj) : option Z :=
  match o with
  | OBool b => Some (if b then 1 else 0)
  | OInt z => Some z
  | _ => None
  end.
(** Numbers: [one] is 1.0 in units of 2^-1074. *)
Definition float (one : Z) (o : obj) : option ext :=
  match o with
  | OBool b => Some (Fin (if b then one else 0))
  | OInt z => Some (Fin (z * one))
  | OFloat x => Some x
  | _ => None
  end.
(** Other arguments than modelled. *)
Definition not_modelled {E A} : W E A := wraise (OtherError 0).

(** [kw.pop(k)] *)
Definition pop {V} (k : string) (kw : dict V) : option V * dict V := (get_key k kw, del_key k kw).
(** [if kwargs: raise TypeError] *)
Definition no_more {E V} (kw : dict V) : W E unit := match kw with [] => wret tt | _ :: _ => wraise TypeError end.
(** [f(x1, ..., xn, **kw)]: TypeError if the name of one of the positional
    parameters of f is in kw. *)
Definition bind {E V} (names : list string) (kw : dict V) : W E unit :=
  if existsb (fun k => has_key k kw) names then wraise TypeError else wret tt.
Definition flag (o : option obj) (default : bool) : bool := match o with Some v => truth v | None => default end.

(** ** check_ns_run and what passes keywords to it *)
(** ns_run_utils.py:433 check_ns_run(run, dup_assert=False, dup_warn=False) *)
Definition check_ns_run_kw {E} (r : run) (kw : dict obj) : W E unit :=
  let* _ := bind ["run"%string] kw in
  let '(da, kw) := pop "dup_assert" kw in
  let '(dw, kw) := pop "dup_warn" kw in
  let* _ := no_more kw in
  check_ns_run r (flag da false) (flag dw false).
(** ns_run_utils.py:170-224 combine_ns_runs(run_list_in, **kwargs): the keywords
    are used in each call of check_ns_run, so for a list of runs which is not
    empty they are checked before anything else (the copy of line 190 apart). *)
Definition combine_ns_runs_kw {E} (runs : list run) (kw : dict obj) : W E run :=
  let* _ := bind ["run_list_in"%string] kw in
  match runs with
  | [] => wraise ValueError
  | _ :: _ =>
      let* _ := bind ["run"%string] kw in
      let '(da, kw) := pop "dup_assert" kw in
      let '(dw, kw) := pop "dup_warn" kw in
      let* _ := no_more kw in
      combine_ns_runs runs (flag da false) (flag dw false)
  end.
(** write_polychord_output.py:122-159 run_dead_birth_array(run, logl_init=-1e30,
    **kwargs); [init] is -1e30. *)
Definition run_dead_birth_array_kw {E} (one init : Z) (r : run) (kw : dict obj) : W E (list samp) :=
  let* _ := bind ["run"%string] kw in
  let '(li, kw) := pop "logl_init" kw in
  let* _ := check_ns_run_kw r kw in
  match match li with Some o => float one o | None => Some (Fin init) end with
  | Some (Fin z) =>
      let* threads := get_run_threads r in
      match threads with
      | [] => wraise ValueError
      | _ => wret (sort_samps E (concat (map (thread_samps z) threads)))
      end
  | _ => not_modelled
  end.

(** ** Processing of samples *)
(** data_processing.py:511-548 birth_inds_given_contours(birth_logl_arr,
    logl_arr, **kwargs) *)
Definition birth_inds_kw {E} (births logls : list Z) (kw : dict obj) : W E (list Z) :=
  let* _ := bind ["birth_logl_arr"; "logl_arr"]%string kw in
  let '(da, kw) := pop "dup_assert" kw in
  let '(dw, kw) := pop "dup_warn" kw in
  let* _ := no_more kw in
  birth_inds_given_contours births logls (flag da false) (flag dw false).
(** data_processing.py:448-508 process_samples_array(samples, **kwargs): see
    ModelData.v for the rest. *)
Definition process_samples_array_kw {E} (samples : list samp) (kw : dict obj) : W E run :=
  let* _ := bind ["samples"%string] kw in
  let samples := sort_samps E samples in
  let lg := map s_logl samples in
  let* bi := birth_inds_kw (map s_birth samples) lg kw in
  let* labs := threads_given_birth_inds bi in
  let uniq := unique labs in
  let* _ := wassert (list_eqb uniq (zrange (length uniq))) in
  let* st := wlift (foldM (thread_step lg bi labs) uniq
                          ([], repeat 0 (S (length samples)))) in
  let '(tmm, delta) := st in
  wret (mkRun lg (map s_theta samples) (but_last (Base.cumsum delta))
              (Some labs) (Some tmm) None None).
(** data_processing.py:212-255 process_polychord_run(file_root, base_dir,
    process_stats_file=True, **kwargs); [rows] is the file of line 240. *)
Definition process_polychord_run_kw {E} (root : Z) (rows : res (list (list Z))) (stats : res outdict) (kw : dict obj)
  : W E run :=
  let* _ := bind ["file_root"; "base_dir"]%string kw in
  let '(ps, kw) := pop "process_stats_file" kw in
  let* rows := wlift rows in
  let* r := process_samples_array_kw (map samp_of_row rows) kw in
  let r := with_output r (Some (mkOut None None (Some root) [])) in
  if flag ps true then
    match stats with
    | Ok o => wret (with_output r (Some o))
    | Raise e => if caught_stats e then let* _ := warn WStats in wret r
                 else wraise e
    end
  else wret r.
(** data_processing.py:258-300 process_multinest_run(file_root, base_dir, **kwargs) *)
Definition process_multinest_run_kw {E} (root : Z) (dead live : list (list Z)) (kw : dict obj) : W E run :=
  let* _ := bind ["file_root"; "base_dir"]%string kw in
  let dead := map (fun x => samp_of_row (drop_cols 2 x)) dead in
  let live := map (fun x => samp_of_row (drop_cols 1 x)) live in
  match dead, live with
  | [], _ | _, [] => wraise ValueError
  | _, _ =>
      let* _ := wassert (max_list (map s_logl dead) <? min_list (map s_logl live)) in
      let* r := process_samples_array_kw (dead ++ live) kw in
      let* _ := wassert (forallb (fun mm => is_ninf (fst mm)) (get_tmm r)) in
      wret (with_output r (Some (mkOut None None (Some root) [])))
  end.

(** ** Bootstrap *)
(** A random_seed: False, an integer or None, which takes a state of the
    operating system (the i-th one here, [os i]).  np.random.seed raises
    TypeError for other objects (lists of integers are not modelled). *)
Definition seed_of {E} (os : nat -> rst E) (i : nat) (o : obj) : option (bseed E) :=
  match o with
  | ONone => Some (BFresh (os i))
  | OBool false => Some BKeep
  | OBool true => Some (BInt 1)
  | OInt z => Some (BInt z)
  | _ => None
  end.
Fixpoint seeds_of {E} (os : nat -> rst E) (i : nat) (l : list obj) : list (bseed E) * bool :=
  match l with
  | [] => ([], true)
  | o :: t => match seed_of os i o with
              | Some b => let '(bs, ok) := seeds_of os (S i) t in (b :: bs, ok)
              | None => ([], false)
              end
  end.
(** error_analysis.py:117-178 run_bootstrap_values(ns_run, estimator_list,
    **kwargs).  The default range(n_simulate) of line 161 is made even if
    random_seeds is given.  A seed which numpy does not accept raises when it
    is reached. *)
Definition run_bootstrap_values_kw {E} (os : nat -> rst E) (srt : list R -> list nat) (r : run) (l : list estimator)
           (kw : dict obj) : W E (list (list fl)) :=
  let* _ := bind ["ns_run"; "estimator_list"]%string kw in
  let '(ns, kw) := pop "ninit_sep" kw in
  let '(fs, kw) := pop "flip_skew" kw in
  let '(n, kw) := pop "n_simulate" kw in
  match n with
  | None => wraise KeyError
  | Some o =>
      match index o with
      | None => wraise TypeError
      | Some n =>
          let '(rs, kw) := pop "random_seeds" kw in
          match match rs with
                | None => Some (map OInt (zrange (Z.to_nat n)))
                | Some (OList l) => Some l
                | Some _ => None
                end with
          | None => wraise TypeError
          | Some rs =>
              let* _ := wassert (Z.of_nat (length rs) =? n) in
              let* _ := no_more kw in
              let '(seeds, ok) := seeds_of os 0 rs in
              if ok then run_bootstrap_values srt r l (flag ns false) (flag fs true) (Z.to_nat n) seeds
              else let* _ := run_bootstrap_values srt r l (flag ns false) (flag fs true) (length seeds) seeds in
                   wraise TypeError
          end
      end
  end.
(** error_analysis.py:83-114 run_std_bootstrap(ns_run, estimator_list, **kwargs) *)
Definition run_std_bootstrap_kw {E} (os : nat -> rst E) (srt : list R -> list nat) (r : run) (l : list estimator)
           (kw : dict obj) : W E (list fl) :=
  let* rows := run_bootstrap_values_kw os srt r l kw in
  wret (map np_std rows).
(** error_analysis.py:181-221 run_ci_bootstrap(ns_run, estimator_list,
    **kwargs): cred_int is used in line 219 only. *)
Definition run_ci_bootstrap_kw {E} (one : Z) (os : nat -> rst E) (srt : list R -> list nat) (r : run) (l : list estimator)
           (kw : dict obj) : W E (list fl) :=
  let* _ := bind ["ns_run"; "estimator_list"]%string kw in
  let '(ci, kw) := pop "cred_int" kw in
  match ci with
  | None => wraise KeyError
  | Some ci =>
      let* rows := run_bootstrap_values_kw os srt r l kw in
      let* expected := wlift (run_estimators srt r l None) in
      match float one ci with
      | Some (Fin z) =>
          wlift (mapM (fun '(t, row) =>
                         let! q := finterp (1 - fval z) (cdf (length row)) (ModelStats.np_sort srt row) in
                         Ok (fsub (fmul t (Some 2%R)) q))
                      (combine expected rows))
      | Some NInf => not_modelled
      | None => match expected with [] => wret [] | _ :: _ => wraise TypeError end
      end
  end.
(** error_analysis.py:267-332 implementation_std(vals_std, vals_std_u, bs_std,
    bs_std_u, **kwargs): random_seed=False seeds with 0. *)
Definition implementation_std_kw {E} (os : nat -> rst E) (norm : normals E) (vals vals_u bs bs_u : list fl) (kw : dict obj)
  : W E (list imp) :=
  let* _ := bind ["vals_std"; "vals_std_u"; "bs_std"; "bs_std_u"]%string kw in
  let '(n, kw) := pop "nsim" kw in
  let '(s, kw) := pop "random_seed" kw in
  let* _ := no_more kw in
  match match n with Some o => index o | None => Some 1000000 end,
        match s with
        | Some (OBool false) => Some (BInt 0)
        | Some o => seed_of os 0 o
        | None => Some (BInt 0)
        end with
  | Some n, Some b => if n <? 0 then not_modelled else implementation_std norm vals vals_u bs bs_u (Z.to_nat n) b
  | _, _ => not_modelled
  end.
(** estimators.py:32-52 count_samples(ns_run, **kwargs) *)
Definition count_samples_kw {E} (r : run) (kw : dict obj) : W E (option R) :=
  let* _ := bind ["ns_run"%string] kw in
  let '(_, kw) := pop "logw" kw in
  let '(_, kw) := pop "simulate" kw in
  let* _ := no_more kw in
  wlift (count_samples r).

(** ** Dummy data *)
(** [if seed is not False: np.random.seed(seed)] *)
Definition seed_kw {E} (os : nat -> rst E) (o : option obj) : W E unit :=
  match seed_of os 0 match o with Some v => v | None => OBool false end with
  | Some b => apply_seed b
  | None => wraise TypeError
  end.
Definition start_kw (one : Z) (o : option obj) : option ext :=
  match o with Some v => float one v | None => Some NInf end.
Definition or_else {V} (o : option V) (default : V) : V := match o with Some v => v | None => default end.
(** dummy_data.py:11-37 get_dummy_thread(nsamples, **kwargs).  [U] are the
    uniform draws for given ndim and logl_range. *)
Definition get_dummy_thread_kw {E} (one : Z) (os : nat -> rst E) (U : obj -> obj -> uniform_draws E) (nsamples : nat)
           (kw : dict obj) : W E run :=
  let* _ := bind ["nsamples"%string] kw in
  let '(sd, kw) := pop "seed" kw in
  let '(nd, kw) := pop "ndim" kw in
  let '(ls, kw) := pop "logl_start" kw in
  let '(lr, kw) := pop "logl_range" kw in
  let* _ := no_more kw in
  let* _ := seed_kw os sd in
  match start_kw one ls with
  | Some x => get_dummy_thread (U (or_else nd (OInt 2)) (or_else lr (OInt 1))) nsamples None x
  | None => not_modelled
  end.
(** dummy_data.py:50-78 get_dummy_run(nthread, nsamples, **kwargs) *)
Definition get_dummy_run_kw {E} (one : Z) (os : nat -> rst E) (U : obj -> obj -> uniform_draws E) (nthread nsamples : nat)
           (kw : dict obj) : W E run :=
  let* _ := bind ["nthread"; "nsamples"]%string kw in
  let '(sd, kw) := pop "seed" kw in
  let '(nd, kw) := pop "ndim" kw in
  let '(ls, kw) := pop "logl_start" kw in
  let '(lr, kw) := pop "logl_range" kw in
  let* _ := no_more kw in
  let* _ := seed_kw os sd in
  match start_kw one ls with
  | Some x => get_dummy_run (U (or_else nd (OInt 2)) (or_else lr (OInt 1))) nthread nsamples None x
  | None => not_modelled
  end.
(** dummy_data.py:99-131 get_dummy_dynamic_run(nsamples, **kwargs) *)
Definition get_dummy_dynamic_run_kw {E} (init : Z) (os : nat -> rst E) (U : obj -> obj -> uniform_draws E) (nsamples : nat)
           (kw : dict obj) : W E run :=
  let* _ := bind ["nsamples"%string] kw in
  let '(sd, kw) := pop "seed" kw in
  let '(nd, kw) := pop "ndim" kw in
  let '(ni, kw) := pop "nthread_init" kw in
  let '(ny, kw) := pop "nthread_dyn" kw in
  let '(lr, kw) := pop "logl_range" kw in
  let* _ := no_more kw in
  let* _ := seed_kw os sd in
  match index (or_else ni (OInt 2)), index (or_else ny (OInt 3)) with
  | Some a, Some b =>
      if (a <? 0) || (b <? 0) then not_modelled
      else get_dummy_dynamic_run (U (or_else nd (OInt 2)) (or_else lr (OInt 1))) nsamples (Z.to_nat a) (Z.to_nat b) None init
  | _, _ => not_modelled
  end.

(** ** Writing *)
(** write_polychord_output.py:16-78 write_run_output(run, **kwargs).  [fmts] are
    the formats, of which the default is '% .14E'; [init] is -1e30. *)
Definition write_run_output_kw {E F} (one init : Z) (fmts : option obj -> ModelWrite.savefmt) (U : uniforms E)
           (toF : fl -> ModelStatsFile.num F) (srt : list R -> list nat) (r : run) (out : option (ModelStatsFile.stats_in F))
           (kw : dict obj) (s : ModelStatsFile.store) (w : world E)
  : res unit * (option (ModelStatsFile.stats_in F) * ModelStatsFile.store) * world E :=
  if has_key "run" kw then (Raise TypeError, (out, s), w) else
  let '(wd, kw) := pop "write_dead" kw in
  let '(ws, kw) := pop "write_stats" kw in
  let '(po, kw) := pop "posteriors" kw in
  let '(eq, kw) := pop "equals" kw in
  let '(sm, kw) := pop "stats_means_errs" kw in
  let '(fm, kw) := pop "fmt" kw in
  let '(n, kw) := pop "n_simulate" kw in
  let '(li, kw) := pop "logl_init" kw in
  match kw with
  | _ :: _ => (Raise TypeError, (out, s), w)
  | [] =>
      match index (or_else n (OInt 100)), match li with Some o => float one o | None => Some (Fin init) end with
      | Some n, Some (Fin z) =>
          if n <? 0 then (Raise (OtherError 0), (out, s), w)
          else ModelWrite.write_run_output (fmts fm) U toF srt r out
                 (ModelWrite.mkOpts (flag wd true) (flag ws true) (flag po false) (flag eq false) (flag sm true)
                                    (Z.to_nat n) z) s w
      | _, _ => (Raise (OtherError 0), (out, s), w)
      end
  end.

(** ** Saved results *)
(** io_utils.py:68-72 save_load_result: the wrapper takes its keywords out of
    those of the call.  [func rest n] is the result of the n-th call of the
    decorated function with the other keywords. *)
Definition saved_kw (P : ModelIO.pickler) (f : ModelIO.faults) (now : string)
           (func : dict obj -> nat -> ModelIO.iores (ModelIO.value P)) (kw : dict obj) : ModelIO.M (ModelIO.value P) :=
  let '(name, kw) := pop "save_name" kw in
  let '(save, kw) := pop "save" kw in
  let '(load, kw) := pop "load" kw in
  let '(ow, kw) := pop "overwrite_existing" kw in
  let '(wa, kw) := pop "warn_if_error" kw in
  match match name with
        | None | Some ONone => Some None
        | Some (OStr s) => Some (Some s)
        | Some _ => None
        end with
  | Some name =>
      ModelIO.decorated P f now (func kw)
        (ModelIO.mkKwargs name (option_map truth save) (option_map truth load) (flag ow true) (flag wa false))
  | None => ModelIO.mraise (ModelIO.FuncErr 0)
  end.
(** The check at the start of the decorated functions: [known] are their
    keywords (diagnostics_tables.py:61-65 run_list_error_values: thread_pvalue,
    bs_stat_dist, parallel; 157-162 estimator_values_df: estimator_names,
    parallel).  TypeError is [FuncErr 1]. *)
Definition checked {A} (known : list string) (body : dict obj -> nat -> ModelIO.iores A) (kw : dict obj) (n : nat)
  : ModelIO.iores A :=
  match fold_left (fun kw k => snd (pop k kw)) known kw with
  | [] => body kw n
  | _ :: _ => ModelIO.Err (ModelIO.FuncErr 1)
  end.
(** diagnostics_tables.py:61-65 *)
Definition error_values_keywords : list string := ["thread_pvalue"; "bs_stat_dist"; "parallel"]%string.
(** diagnostics_tables.py:157-162 *)
Definition estimator_values_keywords : list string := ["estimator_names"; "parallel"]%string.
