(** Model of nestcheck/data_processing.py: from samples arrays to runs. *)
From Verif Require Import Base ModelRun.

(** ** threads_given_birth_inds (data_processing.py:643-727) *)

(** Lines 676-683: the [while] loop following a thread from point [cur].
    NaN labels are [None].  The fuel is proved to suffice (C01). *)
Fixpoint follow (fuel : nat) (b : list Z) (lab : Z) (cur : nat)
         (labels : list (option Z)) : res (list (option Z)) :=
  match where_ (Z.eqb (Z.of_nat cur)) b with
  | [] => Ok labels
  | nxt :: _ =>
      match fuel with
      | O => Raise OutOfFuel
      | S f =>
          match nth nxt labels None with
          | Some _ => Raise AssertionError
          | None => follow f b lab nxt (upd nxt (Some lab) labels)
          end
      end
  end.

(** Lines 672-684: label the thread starting at point [s]. *)
Definition label_thread (b : list Z) (st : list (option Z) * Z) (s : nat)
  : res (list (option Z) * Z) :=
  let '(labels, num) := st in
  match nth s labels None with
  | Some _ => Raise AssertionError
  | None =>
      let! labels' := follow (length b) b num s (upd s (Some num) labels) in
      Ok (labels', num + 1)
  end.

(** The counts of np.unique(return_counts=True), line 657. *)
Definition count_in (b : list Z) (u : Z) : nat := countb (Z.eqb u) b.

(** Lines 658-665 *)
Definition thread_start_inds (b : list Z) : list Z :=
  firstn 1 (unique b) ++
  filter (fun u => (1 <? count_in b u)%nat) (skipn 1 (unique b)).
Definition thread_start_counts (b : list Z) : list nat :=
  firstn 1 (map (count_in b) (unique b)) ++
  map pred (filter (fun c => (1 <? c)%nat)
                   (skipn 1 (map (count_in b) (unique b)))).

(** Lines 668-672: the start points in the order in which the two nested loops
    visit them (the first point on a contour is skipped unless nmulti = 0). *)
Definition start_points (b : list Z) : list nat :=
  match thread_start_inds b with
  | [] => []
  | u :: t =>
      where_ (Z.eqb u) b ++ flat_map (fun m => tl (where_ (Z.eqb m) b)) t
  end.

(** [~np.isnan] and the values which are not nan. *)
Definition is_some {A} (o : option A) : bool :=
  match o with Some _ => true | None => false end.
Definition somes {A} (l : list (option A)) : list A :=
  flat_map (fun o => match o with Some x => [x] | None => [] end) l.

(** Lines 702-712: choose a label for the unlabelled point [ind]. *)
Definition assign_unlabelled {E} (labels : list (option Z)) (ind : nat)
  : W E (list (option Z)) :=
  let before := somes (firstn ind labels) in
  let after := somes (skipn (S ind) labels) in
  let inter := filter (fun x => existsb (Z.eqb x) after) (unique before) in
  let pool := match inter with [] => unique (somes labels) | _ => inter end in
  let* x := choice pool in
  wret (upd ind (Some x) labels).

(** sum of [thread_start_counts], line 724. *)
Definition nsum (l : list nat) : nat := fold_right Nat.add 0%nat l.

(** Lines 643-727.  The labels are integers by construction, so the assertion
    at 718-719 always holds. *)
Definition threads_given_birth_inds {E} (b : list Z) : W E (list Z) :=
  let* st := wlift (foldM (label_thread b) (start_points b)
                          (repeat None (length b), 0)) in
  let labels := fst st in
  let* labels :=
    if forallb is_some labels then wret labels
    else
      let* _ := warn WUnlabelled in
      let inds := where_ (fun o => negb (is_some o)) labels in
      let* state := get_state in
      let* _ := seed 0 in
      let* labels := wfoldM assign_unlabelled inds labels in
      let* _ := set_state state in
      wret labels in
  let* _ := wassert (forallb is_some labels) in
  let labs := somes labels in
  let* _ := wassert (list_eqb (unique labs)
                              (zrange (nsum (thread_start_counts b)))) in
  wret labs.

(** ** sample_less_than_condition (data_processing.py:624-640) *)

Fixpoint slt_loop {E} (k : nat) (choices condition : list Z) : W E (list Z) :=
  match k with
  | O => wret []
  | S k' =>
      match condition with
      | [] => wret []
      | c :: cond' =>
          let avail := where_ (fun x => x <? c) choices in
          let* sel := choice avail in
          let* out := slt_loop k' (delete sel choices) cond' in
          wret (nth sel choices 0 :: out)
      end
  end.
(** data_processing.py:624-640; the loop is [slt_loop]. *)
Definition sample_less_than_condition {E} (choices condition : list Z)
  : W E (list Z) :=
  slt_loop (min (length condition) (length choices)) choices condition.

(** ** birth_inds_given_contours (data_processing.py:511-621) *)

(** [birth_inds[idx] = vals], with [idx] and [vals] of equal length. *)
Fixpoint assign_at {A} (idx : list nat) (vals : list A) (l : list A) : list A :=
  match idx, vals with
  | i :: idx', v :: vals' => assign_at idx' vals' (upd i v l)
  | _, _ => l
  end.

(** != *)
Definition neqb (x y : Z) : bool := negb (x =? y).

(** Lines 575-588: the death indexes drawn for the births on a tied contour. *)
Definition draw_deaths {E} (births : list Z) (bl : Z) (dup_deaths : list nat)
  : W E (list Z) :=
  let dd := map Z.of_nat dup_deaths in
  if forallb (neqb bl) (take 0 births dup_deaths)
  then shuffle dd
  else sample_less_than_condition dd
         (map Z.of_nat (where_ (Z.eqb bl) births)).

(** Lines 590-618: if there are more births than deaths, warn and repeat some
    deaths (the length mismatch is what raises numpy's ValueError). *)
Definition fill_deaths {E} (nb : nat) (to_use : list Z) : W E (list Z) :=
  if (length to_use <? nb)%nat
  then let* _ := warn WMoreBirths in
       let* extra := choice_n to_use (nb - length to_use) in
       shuffle (to_use ++ extra)
  else wret to_use.

(** Lines 567-618: one iteration of the loop, for point [i]. *)
Definition birth_step {E} (births logls : list Z) (bi : list (option Z)) (i : nat)
  : W E (list (option Z)) :=
  match nth i bi None with
  | Some _ => wret bi
  | None =>
      let bl := nth i births 0 in
      let dup_deaths := where_ (Z.eqb bl) logls in
      match dup_deaths with
      | [d] => wret (upd i (Some (Z.of_nat d)) bi)
      | _ =>
          let dup_births := where_ (Z.eqb bl) births in
          let* _ := wassert (1 <? length dup_deaths)%nat in
          let* to_use := draw_deaths births bl dup_deaths in
          let* to_use := fill_deaths (length dup_births) to_use in
          wret (assign_at dup_births
                          (map Some (firstn (length dup_births) to_use)) bi)
      end
  end.

(** Lines 562-619: the part between seeding and resetting the random state. *)
Definition birth_loop {E} (births logls : list Z) : W E (list Z) :=
  let* init := wlift (item0 births) in
  let* _ := wassert (forallb (fun '(x, y) => x <=? y) (combine births logls)) in
  let bi := map (fun x => if x =? init then Some (-1) else None) births in
  let* bi := wfoldM (birth_step births logls) (seq 0 (length births)) bi in
  let* _ := wassert (forallb is_some bi) in
  wret (somes bi).

(** Lines 511-621.  The random state is reset only on the success path. *)
Definition birth_inds_given_contours {E} (births logls : list Z)
           (dup_assert dup_warn : bool) : W E (list Z) :=
  let* _ := check_ns_run_logls logls dup_assert dup_warn in
  let* state := get_state in
  let* _ := seed 0 in
  let* bi := birth_loop births logls in
  let* _ := set_state state in
  wret bi.

(** ** process_samples_array (data_processing.py:448-508) *)

(** A row of the samples array: param_1, ..., logl, birth_logl. *)
Record samp := mkSamp { s_theta : list Z; s_logl : Z; s_birth : Z }.
Definition samp0 : samp := mkSamp [] 0 0.

(** [samples[np.argsort(samples[:, -2])]] *)
Definition sort_samps (E : env) (l : list samp) : list samp :=
  take samp0 l (argsort E (map s_logl l)).

(** [d[k] += v] *)
Definition add_at (k : nat) (v : Z) (d : list Z) : list Z :=
  upd k (nth k d 0 + v) d.

(** Lines 488-505: one iteration of the loop over labels.  thread_min_max rows
    are filled in label order 0, 1, ..., hence appended here. *)
Definition thread_step (lg bi labs : list Z) (st : list (ext * Z) * list Z)
           (label : Z) : res (list (ext * Z) * list Z) :=
  let '(tmm, delta) := st in
  let inds := where_ (Z.eqb label) labs in
  let lst := last inds 0%nat in
  let fst_ := hd 0%nat inds in
  let sb := nth fst_ bi 0 in
  let delta := add_at (lst + 1) (-1) delta in
  if sb =? nth 0 bi 0
  then Ok (tmm ++ [(NInf, nth lst lg 0)], add_at 0 1 delta)
  else
    let! _ := assertb (0 <=? sb) in
    Ok (tmm ++ [(Fin (nth (Z.to_nat sb) lg 0), nth lst lg 0)],
        add_at (Z.to_nat sb + 1) 1 delta).

(** data_processing.py:448-508 process_samples_array *)
Definition process_samples_array {E} (samples : list samp)
           (dup_assert dup_warn : bool) : W E run :=
  let samples := sort_samps E samples in
  let lg := map s_logl samples in
  let* bi := birth_inds_given_contours (map s_birth samples) lg
                                       dup_assert dup_warn in
  let* labs := threads_given_birth_inds bi in
  let uniq := unique labs in
  let* _ := wassert (list_eqb uniq (zrange (length uniq))) in
  let* st := wlift (foldM (thread_step lg bi labs) uniq
                          ([], repeat 0 (S (length samples)))) in
  let '(tmm, delta) := st in
  wret (mkRun lg (map s_theta samples) (but_last (cumsum delta))
              (Some labs) (Some tmm) None None).

(** ** process_multinest_run (data_processing.py:258-300)

    The two files are arrays of numbers; [dead] and [live] are given as rows of
    floats.  Rows are split into the parameters, logl, birth after dropping the
    final columns (two for dead, one for live). *)
Definition drop_cols (k : nat) (x : list Z) : list Z := firstn (length x - k) x.
(** Lines 470-473: parameters, logl and birth contour of a row. *)
Definition samp_of_row (x : list Z) : samp :=
  mkSamp (drop_cols 2 x) (nth (length x - 2) x 0) (nth (length x - 1) x 0).

(** Lines 283-300; arrays have two dimensions and the right number of columns, see
    ModelMultinest.v for the others. *)
Definition process_multinest_run {E} (root : Z) (dead live : list (list Z))
           (da dw : bool) : W E run :=
  let dead := map (fun x => samp_of_row (drop_cols 2 x)) dead in
  let live := map (fun x => samp_of_row (drop_cols 1 x)) live in
  match dead, live with
  | [], _ | _, [] => wraise ValueError
  | _, _ =>
      let* _ := wassert (max_list (map s_logl dead) <? min_list (map s_logl live)) in
      let* r := process_samples_array (dead ++ live) da dw in
      let* _ := wassert (forallb (fun mm => is_ninf (fst mm)) (get_tmm r)) in
      wret (with_output r (Some (mkOut None None (Some root) [])))
  end.

(** ** process_polychord_run (data_processing.py:212-255): the stats file is
    read by an arbitrary function [stats] (see ModelStatsFile.v for it); the listed
    exceptions are turned into a warning, and others propagate. *)
Definition caught_stats (e : exn) : bool :=
  match e with
  | OSError | ValueError | IndexError | NameError | TypeError => true
  | _ => false
  end.
(** Lines 240-255 *)
Definition process_polychord_run {E} (root : Z) (rows : list (list Z))
           (process_stats : bool) (stats : res outdict) (da dw : bool) : W E run :=
  let* r := process_samples_array (map samp_of_row rows) da dw in
  let r := with_output r (Some (mkOut None None (Some root) [])) in
  if process_stats then
    match stats with
    | Ok o => wret (with_output r (Some o))
    | Raise e => if caught_stats e then let* _ := warn WStats in wret r
                 else wraise e
    end
  else wret r.

(** ** process_dynesty_run (data_processing.py:303-370)

    dynesty results: [d_nlive] is [Some n] for static results (the attribute
    exists), [None] for dynamic ones; [d_samples_n] likewise. *)
Record dynesty := mkDyn {
  d_logl : list Z;
  d_samples : list (list Z);
  d_id : list Z;
  d_nlive : option nat;
  d_batch_nlive : list Z;
  d_samples_batch : list nat;
  d_batch_bounds : list ext;        (* lower bounds, column 0 *)
  d_samples_n : option (list Z)
}.

(** [l[-k:]] (for k = 0 numpy returns everything) *)
Definition last_k {A} (k : nat) (l : list A) : list A :=
  if (k =? 0)%nat then l else skipn (length l - k) l.

(** [a[...] = l] for a one-dimensional slice of length [n]: [l] has length [n],
    or has length one and is repeated; otherwise ValueError. *)
Definition fill_slice {A} (n : nat) (l : list A) : res (list A) :=
  if (length l =? n)%nat then Ok l
  else match l with [x] => Ok (repeat x n) | _ => Raise ValueError end.

(** [l[i]] *)
Definition at_ix {A} (l : list A) (i : nat) : res A :=
  match nth_error l i with Some x => Ok x | None => Raise IndexError end.

(** Lines 327-370.  The rows of samples have one width; negative batch numbers
    are not modelled; the attributes which dynesty's results always have (logl,
    samples, samples_id, and batch_nlive, samples_batch, batch_bounds when there
    is no nlive) exist. *)
Definition process_dynesty_run {E} (d : dynesty) : W E run :=
  let n := length (d_samples d) in
  let* lg := wlift (fill_slice n (d_logl d)) in
  let* labs := wlift (fill_slice n (d_id d)) in
  let uniq := unique (d_id d) in
  let* _ := wassert (list_eqb uniq (zrange (length uniq))) in
  let* st :=
    match d_nlive d with
    | Some nl =>
        let* _ := wassert (length uniq =? nl)%nat in
        let* _ := wassert (list_eqb (unique (last_k nl (d_id d))) (zrange nl)) in
        wret (repeat NInf (length uniq), None)
    | None =>
        let* _ := wassert (Z.of_nat (length uniq) =? zsum (d_batch_nlive d)) in
        let* sn := match d_samples_n d with
                   | Some s => let* x := wlift (fill_slice (n - 1) (diff s)) in wret (Some x)
                   | None => wret None
                   end in
        let* starts :=
          wlift (mapM (fun lab =>
                   let ind := hd 0%nat (where_ (Z.eqb lab) (d_id d)) in
                   let! b := at_ix (d_samples_batch d) ind in
                   at_ix (d_batch_bounds d) b) uniq) in
        wret (starts, sn)
    end in
  let '(starts, sn) := st in
  let finals := map (fun lab => last (where_ (Z.eqb lab) (d_id d)) 0%nat) uniq in
  let* ends :=
    wlift (mapM (fun i =>
             let! z := at_ix (d_logl d) i in
             match sn with
             | Some _ => Ok z
             | None => let! _ := at_ix (d_samples d) i in Ok z
             end) finals) in
  let tmm := combine starts ends in
  let dn := match sn with
            | Some s => s ++ [0]
            | None => fold_left (fun acc i => upd i (-1) acc) finals (repeat 0 n)
            end in
  let* r := dict_given_run_array (zip_rows lg labs dn (d_samples d)) tmm in
  let* _ := check_ns_run r false false in
  wret r.

(** ** run_dead_birth_array (write_polychord_output.py:122-161) *)

(** Lines 147-157: the rows of one thread. *)
Definition thread_samps (logl_init : Z) (th : run) : list samp :=
  let start := match get_tmm th with
               | (Fin z, _) :: _ => z
               | _ => logl_init
               end in
  map (fun '(t, (l, b)) => mkSamp t l b)
      (combine (theta th) (combine (logl th) (start :: but_last (logl th)))).

(** Lines 145-161; np.vstack of nothing raises ValueError. *)
Definition run_dead_birth_array {E} (r : run) (logl_init : Z) (da dw : bool)
  : W E (list samp) :=
  let* _ := check_ns_run r da dw in
  let* threads := get_run_threads r in
  match threads with
  | [] => wraise ValueError
  | _ => wret (sort_samps E (concat (map (thread_samps logl_init) threads)))
  end.
