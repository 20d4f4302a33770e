(** Keyword arguments of the functions of plots.py: which are known, their
    defaults, and how they are used.  The functions themselves are those of
    ModelPlots.v and ModelCurves.v. *)
From Coq Require Import String.
From Verif Require Import Base ModelRun ModelBoot ModelReal ModelStats ModelPlots ModelCurves ModelCalls ModelKeywords.
Local Open Scope list_scope. Local Open Scope nat_scope. Local Open Scope Z_scope.

(** [kw.pop(k, default)], where [conv] is how the value is used; [None] for
    objects which cannot be used so. *)
Definition given_or {A} (conv : obj -> option A) (default : A) (o : option obj) : option A :=
  match o with Some v => conv v | None => Some default end.
(** len(x) *)
Definition len (o : obj) : option nat :=
  match o with OList l => Some (length l) | OStr s => Some (String.length s) | _ => None end.
(** range(n): negative numbers count as 0. *)
Definition count (o : obj) : option nat := option_map Z.to_nat (index o).
(** Numbers as reals. *)
Definition real (o : obj) : option R :=
  match o with
  | OBool b => Some (if b then 1%R else 0%R)
  | OInt z => Some (IZR z)
  | OFloat (Fin z) => Some (fval z)
  | _ => None
  end.
(** np.random.seed(x): None, or an integer (False is 0). *)
Definition np_seed (o : obj) : option (option Z) :=
  match o with ONone => Some None | _ => option_map Some (index o) end.
(** None, or what [conv] gives *)
Definition or_none {A} (conv : obj -> option A) (o : obj) : option (option A) :=
  match o with ONone => Some None | _ => option_map Some (conv o) end.
(** A list *)
Fixpoint all_of {A} (conv : obj -> option A) (l : list obj) : option (list A) :=
  match l with
  | [] => Some []
  | x :: t => match conv x, all_of conv t with Some a, Some r => Some (a :: r) | _, _ => None end
  end.
Definition list_of {A} (conv : obj -> option A) (o : obj) : option (list A) :=
  match o with OList l => all_of conv l | _ => None end.
(** Functions are the objects [OOther n]; [fn n] is the n-th one. *)
Definition func {A} (fn : nat -> A) (o : obj) : option A := match o with OOther n => Some (fn n) | _ => None end.

(** [lambda theta: theta[:, i]], plots.py:279-280 and 407-408; the rows have one
    length. *)
Definition column (i : nat) : quantity :=
  mapM (fun row => match nth_error row i with Some z => Ok (Some (fval z)) | None => Raise IndexError end).
Definition two_columns : list quantity := [column 0; column 1].

(** plots.py:235-346 bs_param_dists(run_list, **kwargs).  [os 0] is the state
    taken from the operating system for random_seed=None.  Not modelled:
    labels or limits without a length and numbers of simulations which are not
    integers, which raise TypeError after the seeding.  The keywords for fgivenx
    are not looked at. *)
Definition bs_param_dists_kw {E} (os : nat -> rst E) (fn : nat -> quantity) (runs : list run) (kw : dict obj)
  : W E (list (list (list (list fl)) * list fl)) :=
  let* _ := bind ["run_list"%string] kw in
  let '(fs, kw) := pop "fthetas" kw in
  match given_or (list_of (func fn)) two_columns fs with
  | None => not_modelled
  | Some fthetas =>
      let '(ls, kw) := pop "labels" kw in
      let '(li, kw) := pop "ftheta_lims" kw in
      let '(n, kw) := pop "n_simulate" kw in
      let '(sd, kw) := pop "random_seed" kw in
      let '(_, kw) := pop "figsize" kw in
      let '(_, kw) := pop "nx" kw in
      let '(_, kw) := pop "ny" kw in
      let '(_, kw) := pop "cache" kw in
      let '(_, kw) := pop "parallel" kw in
      let '(_, kw) := pop "rasterize_contours" kw in
      let '(_, kw) := pop "tqdm_kwargs" kw in
      let* _ := no_more kw in
      match given_or np_seed (Some 0) sd with
      | None => wraise TypeError
      | Some seed =>
          match given_or len (length fthetas) ls, given_or len (length fthetas) li, given_or count 100%nat n with
          | Some nlabels, Some nlims, Some n => bs_param_dists runs fthetas nlabels nlims n seed (os 0%nat)
          | _, _, _ => not_modelled
          end
      end
  end.

(** plots.py:349-574 param_logx_diagram(run_list, **kwargs), with the same
    restrictions. *)
Definition param_logx_diagram_kw {E} (os : nat -> rst E) (fn : nat -> quantity) (U : uniforms E) (runs : list run)
           (kw : dict obj) : W E (list run_plot) :=
  let* _ := bind ["run_list"%string] kw in
  let '(fs, kw) := pop "fthetas" kw in
  match given_or (list_of (func fn)) two_columns fs with
  | None => not_modelled
  | Some fthetas =>
      let '(ls, kw) := pop "labels" kw in
      let '(li, kw) := pop "ftheta_lims" kw in
      let '(th, kw) := pop "threads_to_plot" kw in
      let '(pm, kw) := pop "plot_means" kw in
      let '(n, kw) := pop "n_simulate" kw in
      let '(sd, kw) := pop "random_seed" kw in
      let '(xm, kw) := pop "logx_min" kw in
      let '(_, kw) := pop "figsize" kw in
      let '(co, kw) := pop "colors" kw in
      let '(cm, kw) := pop "colormaps" kw in
      let '(_, kw) := pop "cache" kw in
      let '(_, kw) := pop "parallel" kw in
      let '(_, kw) := pop "rasterize_contours" kw in
      let '(_, kw) := pop "point_size" kw in
      let '(ti, kw) := pop "thin" kw in
      let '(_, kw) := pop "npoints" kw in
      let '(_, kw) := pop "tqdm_kwargs" kw in
      let* _ := no_more kw in
      match given_or np_seed (Some 0) sd with
      | None => wraise TypeError
      | Some seed =>
          match given_or len (length fthetas) ls, given_or len (length fthetas) li,
                given_or (or_none (list_of index)) (Some [0]) th, given_or count 100%nat n,
                given_or (or_none real) None xm, given_or len 5%nat co, given_or len 5%nat cm, given_or real 1%R ti with
          | Some nlabels, Some nlims, Some threads, Some n, Some xmin, Some nco, Some ncm, Some thin =>
              param_logx_diagram U runs fthetas (mkOptions nlabels nlims threads (flag pm true) n xmin nco ncm thin) seed os
          | _, _, _, _, _, _, _, _ => not_modelled
          end
      end
  end.

(** plots.py:581-696 plot_bs_dists(run, fthetas, axes, **kwargs), for [naxes]
    axes; means are plotted if mean_color is not None. *)
Definition plot_bs_dists_kw {E} (r : run) (fthetas : list quantity) (naxes : nat) (kw : dict obj)
  : W E (list (list (list fl)) * list fl) :=
  let* _ := bind ["run"; "fthetas"; "axes"]%string kw in
  let '(li, kw) := pop "ftheta_lims" kw in
  let '(n, kw) := pop "n_simulate" kw in
  let '(_, kw) := pop "colormap" kw in
  let '(mc, kw) := pop "mean_color" kw in
  let '(_, kw) := pop "nx" kw in
  let '(_, kw) := pop "ny" kw in
  let '(_, kw) := pop "cache" kw in
  let '(_, kw) := pop "parallel" kw in
  let '(_, kw) := pop "rasterize_contours" kw in
  let '(_, kw) := pop "smooth" kw in
  let '(_, kw) := pop "flip_axes" kw in
  let '(_, kw) := pop "tqdm_kwargs" kw in
  let* _ := no_more kw in
  match given_or len (length fthetas) li, given_or count 100%nat n with
  | Some nlims, Some n =>
      plot_bs_dists r fthetas naxes nlims n match mc with None | Some ONone => false | Some _ => true end
  | _, _ => not_modelled
  end.

(** plots.py:21-74 plot_run_nlive(method_names, run_dict, **kwargs).  Names of
    methods are integers, as in ModelCurves.v; ymax and figsize are not looked
    at; logx_min=-inf and numbers of points which are not integers at least 0 are
    not modelled. *)
Definition npoints_of (o : obj) : option nat :=
  match index o with Some z => if z <? 0 then None else Some (Z.to_nat z) | None => None end.
Definition plot_run_nlive_kw (lx : nat -> list Z -> list fl) (ll : nat -> R -> fl) (names : list Z)
           (d : list (Z * list nrun)) (kw : dict obj) : res nlive_plot * list (Z * list nrun) :=
  if existsb (fun k => has_key k kw) ["method_names"; "run_dict"]%string then (Raise TypeError, d) else
  let '(xl, kw) := pop "logx_given_logl" kw in
  let '(lo, kw) := pop "logl_given_logx" kw in
  let '(xm, kw) := pop "logx_min" kw in
  let '(_, kw) := pop "ymax" kw in
  let '(n, kw) := pop "npoints" kw in
  let '(_, kw) := pop "figsize" kw in
  let '(pn, kw) := pop "post_mass_norm" kw in
  let '(cn, kw) := pop "cum_post_mass_norm" kw in
  match kw with
  | _ :: _ => (Raise TypeError, d)
  | [] =>
      match given_or (or_none (func lx)) None xl, given_or (or_none (func ll)) None lo, given_or (or_none real) None xm,
            given_or npoints_of 100%nat n, given_or (or_none index) None pn, given_or (or_none index) None cn with
      | Some g, Some f, Some xmin, Some n, Some norm, Some cum => plot_run_nlive names d g f xmin n norm cum
      | _, _, _, _, _, _ => (Raise (OtherError 0), d)
      end
  end.

(** plots.py:157-199 kde_plot_df(df, xlims=None, **kwargs): xlims must be None or
    a dictionary ([isdict n] for the object [OOther n]); nrows=0 is a
    ZeroDivisionError before unknown keywords are looked at.  Negative numbers of
    rows and columns are not modelled, and legend_kwargs and num_xticks are not
    looked at. *)
Definition kde_plot_df_kw (isdict : nat -> bool) (py3 : bool) (kde : list R -> list R -> res (list R))
           (df : list (list (Z * list R))) (kw : dict obj) : res (list kde_axes * option (list Z)) :=
  if has_key "df" kw then Raise TypeError else
  let '(xl, kw) := pop "xlims" kw in
  let! _ := assertb match xl with None | Some ONone => true | Some (OOther n) => isdict n | Some _ => false end in
  let '(_, kw) := pop "figsize" kw in
  let '(_, kw) := pop "num_xticks" kw in
  let '(nr, kw) := pop "nrows" kw in
  match given_or npoints_of 1%nat nr with
  | None => Raise (OtherError 0)
  | Some nrows =>
      if (nrows =? 0)%nat then Raise ZeroDivisionError else
      let '(nc, kw) := pop "ncols" kw in
      let '(no, kw) := pop "normalize" kw in
      let '(le, kw) := pop "legend" kw in
      let '(_, kw) := pop "legend_kwargs" kw in
      match kw with
      | _ :: _ => Raise TypeError
      | [] =>
          match given_or (fun o => option_map Some (npoints_of o)) None nc with
          | Some ncols => kde_plot_df py3 kde df nrows ncols (flag no true) (flag le false)
          | None => Raise (OtherError 0)
          end
      end
  end.
