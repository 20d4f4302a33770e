(** Runs whose log-likelihoods are replaced by an increasing function of them,
    and whose parameters are replaced by any function of them.
    These definitions model no code: they say what is done to the input in the
    statements of PropMono.v. *)
From Verif Require Import Base ModelRun ModelData.

(** [f] keeps the order of the numbers, strictly. *)
Definition increasing (f : Z -> Z) : Prop := forall x y, x < y -> f x < f y.

(** [f] also keeps the order of distances. *)
Definition steady (f : Z -> Z) : Prop :=
  forall x y s, Z.abs (f x - f s) < Z.abs (f y - f s) <-> Z.abs (x - s) < Z.abs (y - s).

(** numpy's argsort sees only the comparisons of the numbers. *)
Definition env_compares (E : env) : Prop :=
  forall f l, increasing f -> argsort E (map f l) = argsort E l.

(** The birth contour -inf stays what it is. *)
Definition ext_by (f : Z -> Z) (e : ext) : ext :=
  match e with NInf => NInf | Fin z => Fin (f z) end.

(** [f] of run['logl'] and run['thread_min_max'], and [g] of each row of
    run['theta']. *)
Definition run_by (f : Z -> Z) (g : list Z -> list Z) (r : run) : run :=
  mkRun (map f (logl r)) (map g (theta r)) (nlive_array r) (thread_labels r)
        (option_map (map (fun mm => (ext_by f (fst mm), f (snd mm)))) (thread_min_max r))
        (output r) (settings r).

(** [f] of the two last columns of the samples array, [g] of the others. *)
Definition samp_by (f : Z -> Z) (g : list Z -> list Z) (s : samp) : samp :=
  mkSamp (g (s_theta s)) (f (s_logl s)) (f (s_birth s)).

(** The result of a computation, [g] applied to it where there is one. *)
Definition result_by {E A} (g : A -> A) (x : res A * world E) : res A * world E :=
  (match fst x with Ok a => Ok (g a) | Raise e => Raise e end, snd x).
