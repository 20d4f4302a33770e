(** Model of write_polychord_output.py:16-119 write_run_output and of
    data_processing.py:212-255 process_polychord_run with the files it reads. *)
From Coq Require Import List String Ascii Bool ZArith Reals.
From Verif Require Import Base ModelRun ModelData ModelBoot ModelReal ModelStats ModelPlots ModelNames ModelStatsFile.
Import ListNotations.
Local Open Scope list_scope.
Local Open Scope Z_scope.

(** ** np.savetxt and np.loadtxt *)

(** A number in a file: nothing which separates numbers or starts a comment. *)
Definition field (t : text) : Prop := t <> [] /\ forall c, In c t -> is_ws c = false /\ c <> "#"%char.
(** A format for np.savetxt (such as '% .14E'), and float.  Floats are printed
    with any number of spaces before them, and read as [rnd x], which is [x] up
    to the precision of the format.  [prw], [rdw] and [rndw] are for the
    weights, which are real numbers in the model. *)
Record savefmt := mkFmt {
  pr : Z -> text;
  prw : R -> text;
  rd : text -> option Z;
  rnd : Z -> Z;
  rdw : text -> option R;
  rndw : R -> R;
  pr_form : forall x, exists k tok, pr x = repeat " "%char k ++ tok /\ field tok /\ rd tok = Some (rnd x);
  prw_form : forall x, exists k tok, prw x = repeat " "%char k ++ tok /\ field tok /\ rdw tok = Some (rndw x)
}.

Definition text_lines (l : list text) : text := flat_map (fun t => t ++ [newline]) l.
(** np.savetxt of an array of floats *)
Definition savetxt (N : savefmt) (rows : list (list Z)) : text :=
  text_lines (map (fun row => join_sp (map (pr N) row)) rows).

Fixpoint before_hash (l : text) : text :=
  match l with [] => [] | c :: t => if Ascii.eqb c "#" then [] else c :: before_hash t end.
(** np.loadtxt, for an array with two dimensions: lines without numbers are
    left out, and all rows must be of the same length. *)
Definition loadtxt (N : savefmt) (file : text) : res (list (list Z)) :=
  let words := filter (fun l => negb (length l =? 0)%nat)
                      (map (fun l => split_ws (before_hash l)) (readlines file)) in
  let! rows := mapM (mapM (fun w => value (rd N w))) words in
  if forallb (fun r => (length r =? length (hd [] rows))%nat) rows then Ok rows else Raise ValueError.
(** Arrays with one row or one column are returned with one dimension, and
    [samples[:, -2]] (data_processing.py:469) raises IndexError. *)
Definition two_dims (rows : list (list Z)) : bool :=
  (1 <? length rows)%nat && (1 <? length (hd [] rows))%nat.

(** ** write_run_output *)

(** The keyword arguments. *)
Record wopts := mkOpts {
  o_dead : bool; o_stats : bool; o_post : bool; o_equals : bool; o_means : bool;
  o_nsim : nat; o_init : Z
}.

(** Computations which also change run['output'] and the files; the changes
    stay when an error is raised. *)
Definition SW (E : env) (F : floats) (A : Type) : Type :=
  stats_in F * store -> world E -> res A * (stats_in F * store) * world E.
Definition sret {E F A} (x : A) : SW E F A := fun st w => (Ok x, st, w).
Definition sbind {E F A B} (m : SW E F A) (k : A -> SW E F B) : SW E F B := fun st w =>
  match m st w with
  | (Ok x, st', w') => k x st' w'
  | (Raise e, st', w') => (Raise e, st', w')
  end.
Definition slift {E F A} (m : W E A) : SW E F A := fun st w => let '(x, w') := m w in (x, st, w').
Definition set_out {E F} (f : stats_in F -> stats_in F) : SW E F unit := fun st w => (Ok tt, (f (fst st), snd st), w).
Definition put {E F} (path : text) (content : text) : SW E F unit := fun st w =>
  (Ok tt, (fst st, fun q => if text_eqb q path then Some content else snd st q), w).
Notation "'let%' x := a 'in' b" := (sbind a (fun x => b))
  (at level 200, x name, a at level 100, b at level 200).
Notation "'let%' '_' := a 'in' b" := (sbind a (fun _ => b))
  (at level 200, a at level 100, b at level 200).

(** write_polychord_output.py:95-118: [run['output'][key] = value] *)
Definition set_nposterior {F} (n : nat) (d : stats_in F) : stats_in F :=
  mkIn (in_root d) (in_base d) (in_logZ d) (in_logZerr d) (in_logZs d) (in_logZerrs d) (in_ncluster d)
       (Some (Z.of_nat n)) (in_nequals d) (in_ndead d) (in_nlive d) (in_nlike d) (in_avnlike d) (in_avnlikeslice d)
       (in_means d) (in_errs d) (in_extra d).
Definition set_nequals {F} (n : nat) (d : stats_in F) : stats_in F :=
  mkIn (in_root d) (in_base d) (in_logZ d) (in_logZerr d) (in_logZs d) (in_logZerrs d) (in_ncluster d)
       (in_nposterior d) (Some (Z.of_nat n)) (in_ndead d) (in_nlive d) (in_nlike d) (in_avnlike d) (in_avnlikeslice d)
       (in_means d) (in_errs d) (in_extra d).
Definition set_ndead {F} (n : nat) (d : stats_in F) : stats_in F :=
  mkIn (in_root d) (in_base d) (in_logZ d) (in_logZerr d) (in_logZs d) (in_logZerrs d) (in_ncluster d)
       (in_nposterior d) (in_nequals d) (Some (Z.of_nat n)) (in_nlive d) (in_nlike d) (in_avnlike d) (in_avnlikeslice d)
       (in_means d) (in_errs d) (in_extra d).
Definition set_means {F} (logZ logZerr : num F) (means errs : list (num F)) (d : stats_in F) : stats_in F :=
  mkIn (in_root d) (in_base d) (Some logZ) (Some logZerr) (in_logZs d) (in_logZerrs d) (in_ncluster d)
       (in_nposterior d) (in_nequals d) (in_ndead d) (in_nlive d) (in_nlike d) (in_avnlike d) (in_avnlikeslice d)
       (Some means) (Some errs) (in_extra d).

(** write_polychord_output.py:89, 110 and 146: [run['theta'].shape[1]] *)
Definition ndim (r : run) : nat := length (hd [] (theta r)).
Definition samp_row (x : samp) : list Z := s_theta x ++ [s_logl x; s_birth x].
(** write_polychord_output.py:91-92: -2 logl and the parameters. *)
Definition post_rows (r : run) : list (list Z) := map (fun '(l, t) => -2 * l :: t) (combine (logl r) (theta r)).
(** write_polychord_output.py:99: [np.where(w_rel > random)[0]] *)
Definition accepted (w_rel us : list R) : list nat :=
  where_ (fun p => if Rlt_dec (snd p) (fst p) then true else false) (combine w_rel us).
(** write_polychord_output.py:109-111 *)
Definition stats_estimators (r : run) : list estimator :=
  Logz :: map (fun i => ParamMean (Z.of_nat i) false) (seq 0 (ndim r)).

(** write_polychord_output.py:83-119, with run['output'] in the state.  The
    weights come first in the rows of [root].txt.  [toF] is the conversion to
    floats.  Columns of different lengths raise ValueError. *)
Definition write_files {E F} (N : savefmt) (U : uniforms E) (toF : fl -> num F) (srt : list R -> list nat)
           (r : run) (o : wopts) (root : text) : SW E F unit :=
  let% _ := if o_dead o then
              let% samples := slift (run_dead_birth_array r (o_init o) false false) in
              let% _ := put (root ++ la "_dead-birth.txt") (savetxt N (map samp_row samples)) in
              put (root ++ la "_dead.txt") (savetxt N (map (fun x => but_last (samp_row x)) samples))
            else sret tt in
  let% w_rel := if o_equals o || o_post o then
                  let% w_rel := slift (wlift (get_w_rel r None)) in
                  if (length (theta r) =? length (logl r))%nat then sret w_rel
                  else slift (wraise ValueError)
                else sret [] in
  let% _ := if o_post o then
              let% _ := put (root ++ la ".txt")
                            (text_lines (map (fun '(x, row) => join_sp (prw N x :: map (pr N) row))
                                             (combine w_rel (post_rows r)))) in
              set_out (set_nposterior (length (theta r)))
            else set_out (set_nposterior 0) in
  let% _ := if o_equals o then
              let% us := slift (random U (length w_rel)) in
              let inds := accepted w_rel us in
              let% _ := put (root ++ la "_equal_weights.txt") (savetxt N (take [] (post_rows r) inds)) in
              set_out (set_nequals (length inds))
            else set_out (set_nequals 0) in
  if o_stats o then
    let% _ := set_out (set_ndead (length (logl r))) in
    let% _ := if o_means o then
                let% values := slift (wlift (run_estimators srt r (stats_estimators r) None)) in
                let% stds := slift (run_std_bootstrap srt r (stats_estimators r) false true (o_nsim o)
                                                      (default_seeds (o_nsim o))) in
                set_out (set_means (toF (hd None values)) (toF (hd None stds))
                                   (map toF (tl values)) (map toF (tl stds)))
              else sret tt in
    fun st w => match write_stats_file (fst st) (snd st) with
                | Ok (_, s) => (Ok tt, (fst st, s), w)
                | Raise e => (Raise e, st, w)
                end
  else sret tt.

(** write_polychord_output.py:79-119.  [out] is run['output'], None if there
    is no such key.  Returned with the result are run['output'] and the files
    afterwards. *)
Definition write_run_output {E F} (N : savefmt) (U : uniforms E) (toF : fl -> num F) (srt : list R -> list nat)
           (r : run) (out : option (stats_in F)) (o : wopts) (s : store) (w : world E)
  : res unit * (option (stats_in F) * store) * world E :=
  match out with
  | None => (Raise KeyError, (None, s), w)
  | Some d =>
      match in_root d, in_base d with
      | Some root, Some base =>
          let '(x, (d', s'), w') := write_files N U toF srt r o (path_join base root) (d, s) w in
          (x, (Some d', s'), w')
      | _, _ => (Raise AssertionError, (out, s), w)
      end
  end.

(** ** process_polychord_run *)

(** The output key of the run: the names only, or all of the .stats file. *)
Inductive run_out (F : floats) := ONames (root base : text) | OStats (o : stats F).
Arguments ONames {F}. Arguments OStats {F}.
(** data_processing.py:240-255; a missing file is an OSError. *)
Definition read_polychord_run {E} (F : floats) (N : savefmt) (root base : text) (process_stats da dw : bool) (s : store)
  : W E (run * run_out F) :=
  match s (path_join base root ++ la "_dead-birth.txt") with
  | None => wraise OSError
  | Some file =>
      let* rows := wlift (loadtxt N file) in
      if negb (two_dims rows) then wraise IndexError
      else
        let* r := process_samples_array (map samp_of_row rows) da dw in
        if process_stats then
          match process_polychord_stats (F := F) root base s with
          | Ok o => wret (r, OStats o)
          | Raise e => if caught_stats e then let* _ := warn WStats in wret (r, ONames root base)
                       else wraise e
          end
        else wret (r, ONames root base)
  end.
