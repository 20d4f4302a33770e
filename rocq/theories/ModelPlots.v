(** Model of the numerical parts of plots.py.  matplotlib and fgivenx are not
    modelled: the functions return the data they pass on for plotting. *)
From Verif Require Import Base ModelRun ModelBoot ModelReal ModelStats.
Local Open Scope R_scope.

(** [a[::2]] and [a[1::2]] *)
Fixpoint evens {A} (l : list A) : list A :=
  match l with [] => [] | [x] => [x] | x :: _ :: t => x :: evens t end.
Definition odds {A} (l : list A) : list A := evens (tl l).

(** plots.py:699-705 alternate_helper *)
Definition alternate_helper {A B} (func : A -> list R -> list R -> B) (x : A) (alt_samps : list fl) : B :=
  let s := finite_part alt_samps in
  func x (evens s) (odds s).

(** plots.py:659-663: one row of samples_array, [width] numbers.  Both
    assignments need as many values as there are samples. *)
Fixpoint interleave {A} (a b : list A) : list A :=
  match a, b with x :: a', y :: b' => x :: y :: interleave a' b' | _, _ => [] end.
Definition sample_row (width n : nat) (values : list fl) (weights : list fl) : res (list fl) :=
  if ((length values =? n) && (length weights =? n))%nat
  then Ok (interleave values weights ++ repeat None (width - 2 * n))
  else Raise ValueError.

(** np.trapz(y, x=x) *)
Fixpoint trapz (y x : list R) : R :=
  match y, x with
  | y0 :: ((y1 :: _) as ty), x0 :: ((x1 :: _) as tx) => (x1 - x0) * (y0 + y1) / 2 + trapz ty tx
  | _, _ => 0
  end.

(** plots.py:767-790 rel_posterior_mass; nan when the integral is 0 (one point,
    or repeated values of logx). *)
Definition rel_posterior_mass (logx logl : list R) : res (list fl) :=
  if negb (length logx =? length logl)%nat then Raise ValueError
  else match logx with
       | [] => Raise ValueError                 (* max of an empty array *)
       | _ =>
           let w := rel (map2 Rplus logx logl) in
           let s := Rabs (trapz w logx) in
           Ok (map (fun v => fdiv (Some v) (Some s)) w)
       end.

(** plots.py:748-751: weights which are normalised in place, and the effective
    number of samples; [None] when they sum to 0 or are not all nonnegative. *)
Definition nonzero (x : R) : bool := if Req_EM_T x 0 then false else true.
Definition negative (x : R) : bool := if Rlt_dec x 0 then true else false.
Definition normalised (weights : list R) : list R := map (fun a => a / rsum weights) weights.
Definition nsamp_eff (weights : list R) : fl :=
  if Req_EM_T (rsum weights) 0 then None
  else
    let nz := filter nonzero (normalised weights) in
    if existsb negative nz then None
    else Some (exp (-1 * rsum (map (fun a => a * ln a) nz))).

(** plots.py:752-758: the bandwidth. *)
Definition kde_sigma (samples w : list R) (neff : R) : R :=
  let mu := rsum (map2 Rmult w samples) in
  let var := rsum (map2 (fun a s => a * (s - mu) ^ 2) w samples) in
  sqrt (var * (neff / (neff - 1))) * Rpower neff (-1 / 5).
(** plots.py:759-763: the sum of the kernels. *)
Definition kde_at (samples w : list R) (sig x : R) : R :=
  rsum (map2 (fun s a => exp (-0.5 * ((x - s) / sig) ^ 2) / sqrt (2 * PI * sig ^ 2) * a) samples w).

(** plots.py:708-764 weighted_1d_gaussian_kde.  All values are nan when the
    weights sum to 0, one of them is negative, there is a single nonzero weight
    (0 * inf) or the variance is 0 (0 / 0), and 0 when there are no samples. *)
Definition weighted_1d_gaussian_kde (xs samples weights : list R) : res (list fl) :=
  let! _ := assertb (length samples =? length weights)%nat in
  let nans := map (fun _ => match samples with [] => Some 0 | _ :: _ => None end) xs in
  match nsamp_eff weights with
  | None => Ok nans
  | Some neff =>
      if Req_EM_T neff 1 then Ok nans
      else
        let w := normalised weights in
        let sig := kde_sigma samples w neff in
        if Req_EM_T sig 0 then Ok nans
        else Ok (map (fun x => Some (kde_at samples w sig x)) xs)
  end.

(** ** Functions which use random numbers *)

(** A quantity to plot: a function of the array theta. *)
Definition quantity := list (list Z) -> res (list fl).

(** plots.py:685-688 and 546-549: the means which are plotted. *)
Definition fsum (l : list fl) : fl := option_map rsum (all_finite l).
Definition means_of (r : run) (fthetas : list quantity) : res (list fl) :=
  let! w := get_w_rel r None in
  mapM (fun f : quantity =>
          let! v := f (theta r) in
          if (length v =? length w)%nat
          then Ok (fsum (map2 (fun a x => fmul (Some (a / rsum w)) x) w v))
          else Raise ValueError) fthetas.

(** plots.py:648-653: samples and relative weights of one bootstrap replication *)
Definition bs_sample {E} (r : run) (ths : list run) : W E (list (list Z) * list R) :=
  let* rt := bootstrap_resample_run r (Some ths) false BKeep in
  let* w := wlift (get_w_rel rt None) in
  wret (theta rt, w).

(** plots.py:655-663: the array given to fgivenx for one quantity; max of an
    empty list raises ValueError. *)
Definition samples_array (bs : list (list (list Z) * list R)) (f : quantity) : res (list (list fl)) :=
  match bs with
  | [] => Raise ValueError
  | _ =>
      let width := (2 * list_max (map (fun p => length (fst p)) bs))%nat in
      mapM (fun p => let! v := f (fst p) in
                     sample_row width (length (fst p)) v (map Some (snd p))) bs
  end.

(** plots.py:581-696 plot_bs_dists: the arrays and means which are plotted.
    Without quantities [cbar] is unbound (UnboundLocalError, a NameError). *)
Definition plot_bs_dists {E} (r : run) (fthetas : list quantity) (naxes nlims n_simulate : nat)
           (mean_color : bool) : W E (list (list (list fl)) * list fl) :=
  let* _ := wassert (length fthetas =? naxes)%nat in
  let* _ := wassert (length fthetas =? nlims)%nat in
  let* ths := get_run_threads r in
  let* bs := wmapM (fun _ => bs_sample r ths) (seq 0 n_simulate) in
  let* arrays := wlift (mapM (samples_array bs) fthetas) in
  let* means := if mean_color then wlift (means_of r fthetas) else wret [] in
  match fthetas with [] => wraise NameError | _ => wret (arrays, means) end.

(** np.random.seed(random_seed): with None the state becomes an arbitrary one,
    given by [fresh]. *)
Definition seed_with {E} (s : option Z) (fresh : rst E) : W E unit :=
  match s with Some z => seed z | None => set_state fresh end.

(** [l[i]] of a list of [n] elements *)
Definition in_range (i n : nat) : res unit := if (i <? n)%nat then Ok tt else Raise IndexError.

(** plt.subplots with one row of [n] subplots: without any it raises ValueError;
    with one it does not return an array, so that indexing it raises TypeError. *)
Definition row_of_axes (n : nat) : res unit :=
  match n with 0%nat => Raise ValueError | 1%nat => Raise TypeError | _ => Ok tt end.
(** plots.py:235-346 bs_param_dists *)
Definition bs_param_dists {E} (runs : list run) (fthetas : list quantity) (nlabels nlims n_simulate : nat)
           (random_seed : option Z) (fresh : rst E) : W E (list (list (list (list fl)) * list fl)) :=
  let* state := get_state in
  let* _ := seed_with random_seed fresh in
  let* _ := wassert (nlabels =? length fthetas)%nat in
  let* _ := wlift (row_of_axes (length runs + length fthetas)) in
  let* out := wmapM (fun '(nrun, r) =>
                       let* _ := wlift (in_range nrun 5) in
                       plot_bs_dists r fthetas (length fthetas) nlims n_simulate true)
                    (rev (combine (seq 0 (length runs)) runs)) in
  let* _ := set_state state in
  wret out.

(** plots.py:467-475: one simulation of the weights, as an interleaved row.
    [get_logx] makes its checks before it draws random numbers. *)
Definition weight_row {E} (U : uniforms E) (r : run) : W E (list fl) :=
  let* _ := wlift (get_logx (nlive_array r) None) in
  let* us := random U (length (nlive_array r)) in
  let* lx := wlift (get_logx (nlive_array r) (Some us)) in
  let logx := rev lx in
  if negb (length logx =? length (logl r))%nat then wraise ValueError
  else
    let w := rel (map2 Rplus logx (rev (map fval (logl r)))) in
    wret (interleave (map Some logx) (map (fun v => fdiv (Some v) (Some (trapz w logx))) w)).

(** Keyword arguments of param_logx_diagram, plots.py:407-429. *)
Record options := mkOptions {
  o_nlabels : nat; o_nlims : nat; o_threads : option (list Z); o_means : bool;
  o_nsim : nat; o_logx_min : option R; o_ncolors : nat; o_ncolormaps : nat; o_thin : R
}.
(** What is plotted of one run. *)
Record run_plot := mkRunPlot {
  p_weights : list (list fl);                            (* 467-475 *)
  p_limit : fl;                                          (* 476-478, 490, 531 *)
  p_scatter : list (list R * list fl);                   (* 508-523 *)
  p_threads : list (list (list R * list fl));            (* 524-530 *)
  p_dists : list (list (list fl)) * list fl;             (* 535-543 *)
  p_means : list fl                                      (* 546-552 *)
}.

(** [np.random.random(...) <= thin], plots.py:516. *)
Definition le_thin (thin u : R) : bool := if Rle_dec u thin then true else false.

(** min of an array: nan if there is a nan in it *)
Definition rmin (l : list R) : R :=
  match l with [] => 0 | x :: t => fold_right Rmin x t end.
Definition fmin (l : list fl) : fl := option_map rmin (all_finite l).

(** plots.py:462-552, the body of the loop over runs; the second part of the
    result is the new value of the variable [state].  [lim] is the variable
    logx_min. *)
Definition plot_run {E} (U : uniforms E) (fthetas : list quantity) (o : options)
           (random_seed : option Z) (fresh : nat -> rst E) (lim : option fl) (state : rst E) (nrun : nat) (r : run)
  : W E (run_plot * rst E) :=
  let* rows := wmapM (fun _ => weight_row U r) (seq 0 (o_nsim o)) in
  let* lim := match lim, rows with
              | Some m, _ => wret m
              | None, [] => wraise ValueError                     (* line 477 *)
              | None, _ => wret (fmin (map (fun row => nth 0 row None) rows))
              end in
  let* _ := wlift (in_range nrun (o_ncolormaps o)) in
  let* logx := wlift (get_logx (nlive_array r) None) in
  let* sc := if Req_EM_T (o_thin o) 1 then wret (logx, theta r, state)
             else
               let* _ := wassert (negb (negative (o_thin o)) && nonzero (o_thin o)
                                  && le_thin 1 (o_thin o)) in
               let* st := get_state in
               let* _ := seed_with random_seed (fresh nrun) in
               let* us := random U (length logx) in
               let inds := where_ (le_thin (o_thin o)) us in
               let* _ := set_state st in
               wret (take 0 logx inds, take [] (theta r) inds, st) in
  let '(scatter_x, scatter_theta, state') := sc in
  let* sct := wmapM (fun f : quantity =>
                let* v := wlift (f scatter_theta) in
                let* _ := wlift (in_range nrun (o_ncolors o)) in
                let* th := wmapM (fun i =>
                             let* labs := match thread_labels r with
                                          | Some l => wret l | None => wraise ValueError end in
                             let inds := where_ (fun k => (k =? i)%Z) labs in
                             let* tv := wlift (f (take [] (theta r) inds)) in
                             let* _ := wlift (in_range nrun 3) in      (* thread_linestyles *)
                             wret (take 0 logx inds, tv))
                           (match o_threads o with Some l => l | None => [] end) in
                wret ((scatter_x, v), th)) fthetas in
  let ncol := if o_means o then S (o_ncolors o) else o_ncolors o in
  let* _ := wlift (in_range nrun ncol) in                              (* mean_colors *)
  let* d := plot_bs_dists r fthetas (length fthetas) (o_nlims o) (o_nsim o) (o_means o) in
  let* m := if o_means o then wlift (means_of r fthetas) else wret [] in
  wret (mkRunPlot rows lim (map fst sct) (map snd sct) d m, state').

(** The variable logx_min before a run, after those with plots [acc]: set once
    (line 477), it stays. *)
Definition limit_before (o : options) (acc : list run_plot) : option fl :=
  match acc with [] => option_map Some (o_logx_min o) | p :: t => Some (p_limit (last t p)) end.

(** plots.py:349-574 param_logx_diagram.  Without runs [posterior_axes] is
    unbound.  Without quantities there is one row of subplots, for which
    plt.subplots returns an array with one dimension: axes[0, 0] raises
    IndexError. *)
Definition param_logx_diagram {E} (U : uniforms E) (runs : list run) (fthetas : list quantity)
           (o : options) (random_seed : option Z) (fresh : nat -> rst E) : W E (list run_plot) :=
  let* state := get_state in
  let* _ := seed_with random_seed (fresh (length runs)) in
  let* _ := wassert (length fthetas =? o_nlabels o)%nat in
  let* _ := wassert (length fthetas =? o_nlims o)%nat in
  let* _ := wlift (match fthetas with [] => Raise IndexError | _ => Ok tt end) in
  let* out := wfoldM (fun '(acc, st) '(nrun, r) =>
                        let* p := plot_run U fthetas o random_seed fresh (limit_before o acc) st nrun r in
                        wret (acc ++ [fst p], snd p))
                     (rev (combine (seq 0 (length runs)) runs)) ([], state) in
  match runs with
  | [] => wraise NameError
  | _ => let* _ := set_state (snd out) in wret (fst out)
  end.
