(** Model of nestcheck/ns_run_utils.py (except weights, see ModelReal.v). *)
From Verif Require Import Base.

(** Birth contours: a finite log-likelihood or -inf (whole prior). *)
Inductive ext := NInf | Fin (z : Z).
Definition ext_leb (e : ext) (z : Z) : bool :=       (* e <= z *)
  match e with NInf => true | Fin a => a <=? z end.
Definition ext_eqb (e : ext) (z : Z) : bool :=       (* e == z, z finite *)
  match e with NInf => false | Fin a => a =? z end.
Definition is_ninf (e : ext) : bool :=
  match e with NInf => true | Fin _ => false end.

(** Values of run['output']['nlike'] and ['ndead']: a number or an iterable. *)
Inductive oval := ONum (z : Z) | OIter (l : list Z).

(** run['output']; the file root and the remaining entries are opaque. *)
Record outdict := mkOut {
  o_nlike : option oval;
  o_ndead : option oval;
  o_root : option Z;
  o_other : list (Z * Z)
}.

(** The nestcheck run dictionary (data_processing.py:15-47).  Finite floats
    are integers in units of 2^-1074.  [thread_labels] and [thread_min_max]
    are [None] when the code sets them to Python's None
    (ns_run_utils.py:293-294).  [output] and [settings] are [None] when the key
    is absent; [settings] is [Some (Some n)] when settings['ninit'] = n. *)
Record run := mkRun {
  logl : list Z;
  theta : list (list Z);
  nlive_array : list Z;
  thread_labels : option (list Z);
  thread_min_max : option (list (ext * Z));
  output : option outdict;
  settings : option (option nat)
}.

(** A row of the samples array:
    [logl, thread label, change in nlive at sample, (thetas)]. *)
Record row := mkRow { r_logl : Z; r_lab : Z; r_dn : Z; r_theta : list Z }.

Fixpoint zip_rows (ls labs dns : list Z) (ths : list (list Z)) : list row :=
  match ls, labs, dns, ths with
  | l :: ls', b :: labs', d :: dns', t :: ths' =>
      mkRow l b d t :: zip_rows ls' labs' dns' ths'
  | _, _, _, _ => []
  end.

(** ns_run_utils.py:42-67 array_given_run.  An empty run raises IndexError at
    line 65; arrays of different lengths raise ValueError (numpy's broadcasting
    of length-one arrays is not modelled).  With thread_labels None Python fills
    the column with nan and every caller then fails with AttributeError on
    thread_min_max; the model raises it here. *)
Definition array_given_run (r : run) : res (list row) :=
  match thread_labels r with
  | None => Raise AttributeError
  | Some labs =>
      let n := length (logl r) in
      if (n =? 0)%nat then Raise IndexError
      else if ((length labs =? n) && (length (nlive_array r) =? n)
               && (length (theta r) =? n))%nat
      then Ok (zip_rows (logl r) labs (diff (nlive_array r) ++ [-1]) (theta r))
      else Raise ValueError
  end.

(** ns_run_utils.py:70-132 dict_given_run_array.  Labels are integers already,
    so the cast and its assertion (lines 101-106) are the identity. *)
Definition dict_given_run_array {E} (samples : list row) (tmm : list (ext * Z))
  : W E run :=
  match samples with
  | [] => wraise ValueError
  | _ =>
      let lg := map r_logl samples in
      let lmin := min_list lg in
      let nlive_0 := Z.of_nat (countb (fun mm => ext_leb (fst mm) lmin) tmm) in
      let* _ := wassert (0 <? nlive_0) in
      let nl := nlive_0 :: map (Z.add nlive_0)
                               (cumsum (but_last (map r_dn samples))) in
      let dup := countb (fun mm => ext_eqb (fst mm) lmin) tmm in
      let n_min := countb (Z.eqb lmin) lg in
      let nl' :=
        if (1 <? dup)%nat
        then repeat nlive_0 n_min ++
             skipn n_min (map (Z.add (1 - last nl 0)) nl)
        else nl in
      let* _ := if (1 <? dup)%nat then warn WDupStarts else wret tt in
      let* _ := wassert (0 <? min_list nl') in
      let* _ := wassert (last nl' 0 =? 1) in
      wret (mkRun lg (map r_theta samples) nl' (Some (map r_lab samples))
                  (Some tmm) None None)
  end.

(** ns_run_utils.py:160-162: zero the nlive changes, -1 at the last row. *)
Fixpoint thread_dn (rows : list row) : list row :=
  match rows with
  | [] => []
  | [x] => [mkRow (r_logl x) (r_lab x) (-1) (r_theta x)]
  | x :: t => mkRow (r_logl x) (r_lab x) 0 (r_theta x) :: thread_dn t
  end.

Definition row0 : row := mkRow 0 0 0 [].

(** ns_run_utils.py:135-167 get_run_threads *)
Definition get_run_threads {E} (r : run) : W E (list run) :=
  let* samples := wlift (array_given_run r) in
  match thread_labels r, thread_min_max r with
  | Some labs, Some tmm =>
      let uniq := unique labs in
      let* _ := wassert (length tmm =? length uniq)%nat in
      wmapM (fun '(lab, mm) =>
               let rows := thread_dn (filter (fun x => r_lab x =? lab) samples) in
               let* _ := wassert (snd mm =? r_logl (last rows row0)) in
               dict_given_run_array rows [mm])
            (combine uniq tmm)
  | _, _ => wraise AttributeError
  end.

(** ** Checks *)

(** ns_run_utils.py:459-496 check_ns_run_members.  The record type already
    fixes the mandatory keys; the only other key is [settings]. *)
Definition check_ns_run_members (r : run) : res unit :=
  let! _ := assertb (match settings r with None => true | Some _ => false end) in
  match thread_labels r, thread_min_max r with
  | Some labs, Some _ =>
      let! _ := assertb (length (logl r) =? length (nlive_array r))%nat in
      let! _ := assertb (length (logl r) =? length labs)%nat in
      assertb (length (logl r) =? length (theta r))%nat
  | _, _ => Raise AssertionError
  end.

(** ns_run_utils.py:499-532 check_ns_run_logls *)
Definition check_ns_run_logls {E} (lg : list Z) (dup_assert dup_warn : bool)
  : W E unit :=
  let* _ := wassert (list_eqb lg (take 0 lg (argsort E lg))) in
  let repeat_logls := (length lg - length (unique lg))%nat in
  if dup_assert then wassert (repeat_logls =? 0)%nat
  else if dup_warn then
         if (repeat_logls =? 0)%nat then wret tt else warn WDupLogl
       else wret tt.

(** ns_run_utils.py:535-566 check_ns_run_threads.  Labels are integers, so the
    dtype assertion holds; on None it raises AttributeError. *)
Definition check_ns_run_threads (r : run) : res unit :=
  match thread_labels r, thread_min_max r with
  | Some labs, Some tmm =>
      let uniq := unique labs in
      let! _ := assertb (list_eqb (zrange (length tmm)) uniq) in
      let! _ := assertb (existsb (fun mm => is_ninf (fst mm)) tmm) in
      foldM (fun _ lab =>
               let inds := where_ (Z.eqb lab) labs in
               let mm := nth (Z.to_nat lab) tmm (NInf, 0) in
               let! _ := assertb (ext_leb (fst mm)
                                          (nth (hd 0%nat inds) (logl r) 0)) in
               assertb (snd mm =? nth (last inds 0%nat) (logl r) 0))
            uniq tt
  | _, _ => Raise AttributeError
  end.

(** ns_run_utils.py:433-456 check_ns_run *)
Definition check_ns_run {E} (r : run) (dup_assert dup_warn : bool) : W E unit :=
  let* _ := wlift (check_ns_run_members r) in
  let* _ := check_ns_run_logls (logl r) dup_assert dup_warn in
  wlift (check_ns_run_threads r).

(** ** Combining *)

(** [samples_temp[np.argsort(samples_temp[:, 0])]] *)
Definition sort_rows (E : env) (rows : list row) : list row :=
  take row0 rows (argsort E (map r_logl rows)).

(** Lines 208-222 of ns_run_utils.py for one key; [None] is the KeyError case. *)
Definition oval_total (v : oval) : Z :=
  match v with ONum z => z | OIter l => zsum l end.
(** Lines 208-222: the sum over all runs, [None] when one of them lacks the key. *)
Fixpoint sum_output (get : outdict -> option oval) (runs : list run)
  : option Z :=
  match runs with
  | [] => Some 0
  | r :: t =>
      match output r with
      | None => None
      | Some o => match get o, sum_output get t with
                  | Some v, Some s => Some (oval_total v + s)
                  | _, _ => None
                  end
      end
  end.

(** ns_run_utils.py:195-199: check each run and shift its labels. *)
Fixpoint relabel_runs {E} (tot : nat) (runs : list run) (da dw : bool)
  : W E (list run) :=
  match runs with
  | [] => wret []
  | r :: t =>
      let* _ := check_ns_run r da dw in
      match thread_labels r, thread_min_max r with
      | Some labs, Some tmm =>
          let* t' := relabel_runs (tot + length tmm) t da dw in
          wret (mkRun (logl r) (theta r) (nlive_array r)
                      (Some (map (Z.add (Z.of_nat tot)) labs)) (Some tmm)
                      (output r) (settings r) :: t')
      | _, _ => wraise AttributeError
      end
  end.

(** Row access to thread_min_max, used where it is not None. *)
Definition get_tmm (r : run) : list (ext * Z) :=
  match thread_min_max r with Some t => t | None => [] end.

(** [run['output'] = o] *)
Definition with_output (r : run) (o : option outdict) : run :=
  mkRun (logl r) (theta r) (nlive_array r) (thread_labels r)
        (thread_min_max r) o (settings r).

(** ns_run_utils.py:170-224 combine_ns_runs.  deepcopy makes the input
    immutable, which Gallina values are anyway; the runs share no arrays
    (ModelAlias.v models runs which do).  Widths of theta: see ModelWidth.v. *)
Definition combine_ns_runs {E} (runs : list run) (da dw : bool) : W E run :=
  match runs with
  | [] => wraise ValueError
  | [r] => let* _ := check_ns_run r da dw in wret r
  | _ =>
      let* rl := relabel_runs 0 runs da dw in
      let tmm := flat_map get_tmm rl in
      let* samples := wlift (mapM array_given_run rl) in
      let samples := sort_rows E (concat samples) in
      let* r := dict_given_run_array samples tmm in
      let out := mkOut (option_map ONum (sum_output o_nlike runs))
                       (option_map ONum (sum_output o_ndead runs)) None [] in
      let r := with_output r (Some out) in
      let* _ := check_ns_run r da dw in
      wret r
  end.

(** [samples_temp[i, 2] += 1], lines 272, 278, 284. *)
Definition bump (i : nat) (rows : list row) : list row :=
  let x := nth i rows row0 in
  upd i (mkRow (r_logl x) (r_lab x) (r_dn x + 1) (r_theta x)) rows.

(** [np.argmin]: first index of the minimum (nonempty list). *)
Fixpoint argmin_from (best : Z) (bi i : nat) (l : list Z) : nat :=
  match l with
  | [] => bi
  | x :: t => if x <? best then argmin_from x i (S i) t
              else argmin_from best bi (S i) t
  end.
Definition argmin (l : list Z) : nat :=
  match l with [] => 0%nat | x :: t => argmin_from x 0 1 t end.

(** ns_run_utils.py:264-284: body of the loop over finite starts. *)
Definition add_start {E} (assert_bp : bool) (rows : list row) (s : Z)
  : W E (list row) :=
  let ind := where_ (fun x => r_logl x =? s) rows in
  let* _ := if assert_bp then wassert (length ind =? 1)%nat else wret tt in
  match ind with
  | [] => wret (bump (argmin (map (fun x => Z.abs (r_logl x - s)) rows)) rows)
  | [i] => wret (bump i rows)
  | _ => let* i := choice ind in wret (bump i rows)
  end.

(** [logl_starts[logl_starts != -np.inf]], lines 261 and 264. *)
Definition finite_starts (tmm : list (ext * Z)) : list Z :=
  flat_map (fun mm => match fst mm with NInf => [] | Fin z => [z] end) tmm.

(** ns_run_utils.py:288-294 *)
Definition drop_bad_threads (r : run) : res run :=
  match check_ns_run_threads r with
  | Ok _ => Ok r
  | Raise AssertionError =>
      Ok (mkRun (logl r) (theta r) (nlive_array r) None None
                (output r) (settings r))
  | Raise e => Raise e
  end.

(** ns_run_utils.py:227-295 combine_threads.  A thread whose thread_min_max is
    None makes np.vstack build an object array and the code fails with
    TypeError further on; in the model it contributes no rows to tmm and the
    length assertion fails. *)
Definition combine_threads {E} (threads : list run) (assert_bp : bool)
  : W E run :=
  match threads with
  | [] => wraise ValueError
  | _ =>
      let tmm := flat_map get_tmm threads in
      let* _ := wassert (length threads =? length tmm)%nat in
      let* samples := wlift (mapM array_given_run threads) in
      let samples := sort_rows E (concat samples) in
      let* state := get_state in
      let* _ := seed 0 in
      let* samples := wfoldM (add_start assert_bp) (finite_starts tmm) samples in
      let* _ := set_state state in
      let* r := dict_given_run_array samples tmm in
      wlift (drop_bad_threads r)
  end.
