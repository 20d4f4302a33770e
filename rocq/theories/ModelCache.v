(** The names of fgivenx's cache files in plots.py. *)
From Coq Require Import List String Ascii Bool ZArith.
From Verif Require Import Base ModelNames.
Local Open Scope string_scope. Local Open Scope nat_scope.

(** The argument cache: None, a string, or an object to which a string cannot be
    added (TypeError, as for numbers and lists). *)
Inductive cache_arg := CNone | CStr (s : string) | COther (n : nat).
(** [try: cache = cache_in + '_' + ... except TypeError: cache = None] *)
Definition cache_name (c : cache_arg) (tail : string) : option string :=
  match c with CStr s => Some (s ++ "_" ++ tail) | CNone | COther _ => None end.
Definition given_name (o : option string) : cache_arg := match o with Some s => CStr s | None => CNone end.

(** What is plotted from a cache: the weights of a run, or the distribution of
    a quantity for a run. *)
Inductive plotted := Weights (run : nat) | Distribution (run quantity : nat).

(** plots.py:665-673 plot_bs_dists: the quantities in order. *)
Definition bs_dists_caches (run nquant : nat) (c : cache_arg) : list (plotted * option string) :=
  map (fun nf => (Distribution run nf, cache_name c (str_int (Z.of_nat nf)))) (seq 0 nquant).
(** plots.py:313-327 bs_param_dists: the runs in reverse order. *)
Definition bs_param_dists_caches (nruns nquant : nat) (c : cache_arg) : list (plotted * option string) :=
  flat_map (fun nrun => bs_dists_caches nrun nquant (given_name (cache_name c (str_int (Z.of_nat nrun))))) (rev (seq 0 nruns)).
(** plots.py:462-541 param_logx_diagram: lines 479-487 for the weights, 533-541
    for the distributions, which get [cache=cache_in] for every run. *)
Definition param_logx_diagram_caches (nruns nquant : nat) (c : cache_arg) : list (plotted * option string) :=
  flat_map (fun nrun => (Weights nrun, cache_name c (str_int (Z.of_nat nrun) ++ "_weights")) :: bs_dists_caches nrun nquant c)
           (rev (seq 0 nruns)).
